(** Lemmas about what reaches build targets from what they use. *)
From Coq Require Import Lia.
From Verif Require Import Base M_Path S_Path L_Path L_Path2 M_Escape M_Backend M_Compile S_Compile L_Backend L_Compile L_Sources M_Link S_Link.
Local Arguments B _ : simpl never.

(** ** Lists *)
Lemma selected_In {A} (P : A -> Prop) l r : selected P l r -> forall x, In x r <-> In x l /\ P x.
Proof.
  induction 1 as [|y l r Hy H IH|y l r Hy H IH]; intros x; cbn [In].
  - tauto.
  - rewrite IH. intuition (subst; auto).
  - rewrite IH. intuition (subst; tauto).
Qed.
Lemma Forall2_in_r {X Y} (P : X -> Y -> Prop) a b y : Forall2 P a b -> In y b -> exists x, In x a /\ P x y.
Proof. induction 1 as [|x z a b H F IH]; intros []; [subst; exists x; split; [now left|exact H]|]. destruct IH as (x' & Hx & Q); [assumption|]. exists x'. split; [now right|exact Q]. Qed.
Lemma Forall2_in_l {X Y} (P : X -> Y -> Prop) a b x : Forall2 P a b -> In x a -> exists y, In y b /\ P x y.
Proof. induction 1 as [|z y a b H F IH]; intros []; [subst; exists y; split; [now left|exact H]|]. destruct IH as (x' & Hx & Q); [assumption|]. exists x'. split; [now right|exact Q]. Qed.
Lemma dedup_args_In l x : In x (dedup_args l) <-> In x l.
Proof.
  unfold dedup_args. enough (X : forall l acc, In x (fold_left (fun acc s => if beqb s (B "-pthread") && existsb (beqb s) acc then acc else acc ++ [s]) l acc) <-> In x acc \/ In x l)
    by (rewrite X; cbn; tauto).
  clear l. induction l as [|s l IH]; intros acc; cbn [fold_left]; [cbn; tauto|]. rewrite IH. destruct (beqb s (B "-pthread") && existsb (beqb s) acc) eqn:E.
  - apply andb_prop in E as [_ E]. apply existsb_exists in E as (y & Hy & E). destruct (beqb_spec s y) as [->|]; [|discriminate]. cbn. intuition (subst; auto).
  - rewrite in_app_iff. cbn. tauto.
Qed.
Lemma inc_eqb_eq a b : inc_eqb a b = true <-> a = b.
Proof.
  destruct a as [p s], b as [q t]. unfold inc_eqb. cbn [fst snd]. split.
  - intros E. apply andb_prop in E as [E1 E2]. apply Bool.eqb_prop in E1 as ->. destruct (beqb_spec p q) as [->|]; [reflexivity|discriminate].
  - intros [= -> ->]. now rewrite Bool.eqb_reflx, beqb_refl.
Qed.
Lemma dedup_incs_In l x : In x (dedup_incs l) <-> In x l.
Proof.
  unfold dedup_incs. enough (X : forall l acc, In x (fold_left (fun acc s => if existsb (inc_eqb s) acc then acc else acc ++ [s]) l acc) <-> In x acc \/ In x l)
    by (rewrite X; cbn; tauto).
  clear l. induction l as [|s l IH]; intros acc; cbn [fold_left]; [cbn; tauto|]. rewrite IH. destruct (existsb (inc_eqb s) acc) eqn:E.
  - apply existsb_exists in E as (y & Hy & E). apply inc_eqb_eq in E as ->. cbn. intuition (subst; auto).
  - rewrite in_app_iff. cbn. tauto.
Qed.
Lemma dedup_incs_fst l x : In x (map fst (dedup_incs l)) <-> In x (map fst l).
Proof. rewrite !in_map_iff. split; intros (y & E & H); exists y; (split; [exact E|]); now apply dedup_incs_In. Qed.

(** ** What is passed on *)
Definition carried (k : kind) (dep : bool) : Prop :=
  match k with Compile_args | Include_dirs | Sources | Objects => dep = true | _ => True end.
Lemma contents_merge k s d dep x : In x (contents k (merge s d dep)) <-> In x (contents k d) \/ (carried k dep /\ In x (contents k s)).
Proof.
  destruct k; cbn [contents merge d_with d_whole d_missing d_link d_compile d_incs d_sources d_objects d_order d_rpath carried];
    try (rewrite in_app_iff; tauto); destruct dep; try (rewrite ?map_app, in_app_iff; intuition congruence); intuition congruence.
Qed.
Lemma contents_dedup k d x : In x (contents k (dedup_pass d)) <-> In x (contents k d).
Proof.
  destruct k; cbn [contents dedup_pass d_with d_whole d_missing d_link d_compile d_incs d_sources d_objects d_order d_rpath];
    try apply (proj1 (dedup_spec _)); try apply dedup_args_In. apply dedup_incs_fst.
Qed.
Definition lib_kind (whole : bool) : kind := if whole then Wholes else Libraries.
Lemma contents_push_library k whole p d x : In x (contents k (push_library whole p d)) <-> In x (contents k d) \/ (k = lib_kind whole /\ x = p).
Proof.
  destruct k, whole; cbn [contents push_library lib_kind d_with d_whole d_missing d_link d_compile d_incs d_sources d_objects d_order d_rpath];
    rewrite ?in_app_iff; cbn [In]; intuition (try discriminate; subst; auto).
Qed.
Lemma contents_push_rpath k p d x : In x (contents k (push_rpath p d)) <-> In x (contents k d) \/ (k = Rpaths /\ x = p).
Proof.
  destruct k; cbn [contents push_rpath d_with d_whole d_missing d_link d_compile d_incs d_sources d_objects d_order d_rpath];
    rewrite ?in_app_iff; cbn [In]; intuition (try discriminate; subst; auto).
Qed.
Lemma contents_push_all k whole ps d x : In x (contents k (fold_left (fun d p => push_library whole p d) ps d)) <-> In x (contents k d) \/ (k = lib_kind whole /\ In x ps).
Proof.
  revert d. induction ps as [|p ps IH]; intros d; cbn [fold_left In]; [tauto|]. rewrite IH, contents_push_library. intuition.
Qed.

Section Project.
Context (root : bytes) (ds : list decl) (OK : ok_project root ds).
Notation is_decl := (is_decl ds).
Notation reaches := (reaches root ds).

Lemma decl_one i x y : is_decl i x -> is_decl i y -> x = y.
Proof. unfold S_Link.is_decl. congruence. Qed.
Lemma source_ok k i p : reaches k i p -> k = Sources -> source_file root p.
Proof.
  destruct OK as [_ _ O3 O4].
  induction 1; intros Ek; try discriminate Ek; auto.
  - specialize (O3 a). rewrite Forall_forall in O3. apply O3; [|assumption]. eapply nth_error_In; eassumption.
  - subst k. specialize (O4 d). rewrite Forall_forall in O4. apply O4; [|assumption]. eapply nth_error_In; eassumption.
Qed.
Lemma directory_ok p d : is_abs p = true -> comps p <> [] -> path_dirname p = Some d <-> directory_of p d.
Proof.
  intros Ha Hc. assert (Np : p <> []) by (intros ->; discriminate). destruct (exists_last Hc) as (l & n & E).
  rewrite (proj2 (dirname_basename p l n Np E)). split.
  - intros [= <-]. exists l, n. auto.
  - intros (l' & n' & E' & ->). rewrite E in E'. apply app_inj_tail in E' as [-> _]. reflexivity.
Qed.

(** ** The state *)
Definition dep_decl (x : decl) : Prop := match x with DDeclare _ | DFound _ | DMissing | DPartial _ _ | DSystem _ _ => True | _ => False end.
Record target_ok (i : nat) (t : targ) (m : made) : Prop := {
  to_type : m_type m = t_type t; to_path : m_path m = t_path t;
  to_in : forall k x, In x (contents k (m_internal m)) <-> reaches k i x \/ (k = Link_args /\ In x (t_link_args t));
  to_out : forall k x, k <> Include_dirs -> (In x (contents k (m_passed m)) <-> passes (t_type t) k /\ reaches k i x) }.
Definition ok (i : nat) (v : thing) : Prop :=
  match v with
  | VTarget m => exists t, is_decl i (DTarget t) /\ target_ok i t m
  | VBoth j => is_decl i (DBoth j)
  | VCustom ps => is_decl i (DCustom ps)
  | VDep f d => (exists x, is_decl i x /\ dep_decl x) /\ (f = true <-> found ds i) /\ forall k x, In x (contents k d) <-> reaches k i x
  end.
Context (store : list thing) (Hs : forall i v, nth_error store i = Some v -> ok i v).

(** what one element of link_with or link_whole contributes *)
Definition lib_gives (k : kind) (j : nat) (t : targ) (x : bytes) : Prop :=
  (t_type t <> StaticLib /\ k = Rpaths /\ directory_of (t_path t) x) \/ (passes (t_type t) k /\ reaches k j x).
Definition gives (whole : bool) (it : litem) (k : kind) (x : bytes) : Prop :=
  (k = lib_kind whole /\ names_file ds it x) \/ (exists n j t, it = LThing n /\ library_of ds n j t /\ lib_gives k j t x).

Lemma target_path t i : is_decl i (DTarget t) -> is_abs (t_path t) = true /\ comps (t_path t) <> [].
Proof. intros H. destruct OK as [_ O _ _]. destruct (O t) as (A & B & _); [eapply nth_error_In; exact H|auto]. Qed.
Lemma link_target_ok whole j t m d d' : is_decl j (DTarget t) -> target_ok j t m -> link_target whole m d = Some d' ->
  forall k x, In x (contents k d') <-> In x (contents k d) \/ (k = lib_kind whole /\ t_type t <> Executable /\ x = t_path t) \/ lib_gives k j t x.
Proof.
  intros Hj [T1 T2 _ T4] E k x. unfold link_target in E. rewrite T1, T2 in E. destruct (target_path t j Hj) as [Ha Hc].
  destruct (whole && negb (is_static (t_type t))) eqn:E0; [discriminate|].
  assert (M : carried k false /\ In x (contents k (m_passed m)) <-> passes (t_type t) k /\ reaches k j x).
  { destruct k; cbn [carried passes]; try (rewrite T4 by discriminate; cbn [passes]; tauto); intuition discriminate. }
  set (d1 := if is_executable (t_type t) then d else push_library whole (t_path t) d) in E.
  assert (M1 : In x (contents k d1) <-> In x (contents k d) \/ (k = lib_kind whole /\ t_type t <> Executable /\ x = t_path t)).
  { unfold d1. destruct (t_type t); cbn [is_executable]; rewrite ?contents_push_library; intuition congruence. }
  destruct (is_static (t_type t)) eqn:Es.
  - injection E as <-. rewrite contents_merge, M1, M. unfold lib_gives. assert (t_type t = StaticLib) as -> by (destruct (t_type t); discriminate + reflexivity). intuition congruence.
  - destruct (path_dirname (t_path t)) as [dir|] eqn:Ed; [|discriminate]. injection E as <-. apply (directory_ok _ _ Ha Hc) in Ed.
    assert (Ns : t_type t <> StaticLib) by (intros X; rewrite X in Es; discriminate).
    assert (M2 : In x (contents k (if existsb (beqb dir) (d_rpath d1) then d1 else push_rpath dir d1)) <-> In x (contents k d1) \/ (k = Rpaths /\ x = dir)).
    { destruct (existsb (beqb dir) (d_rpath d1)) eqn:Ex.
      - apply existsb_exists in Ex as (y & Hy & Ey). destruct (beqb_spec dir y) as [->|]; [|discriminate]. intuition (subst; auto).
      - apply contents_push_rpath. }
    rewrite contents_merge, M2, M1, M. unfold lib_gives.
    assert (D : directory_of (t_path t) x <-> x = dir).
    { split; [|intros ->; exact Ed]. intros X. apply (directory_ok _ _ Ha Hc) in X. apply (directory_ok _ _ Ha Hc) in Ed. congruence. }
    rewrite D. tauto.
Qed.
(** the element [n] has contributed *)
Definition covered (whole : bool) (seen : list nat) (d : pass) : Prop :=
  forall n, In n seen -> forall k x, gives whole (LThing n) k x -> In x (contents k d).
Lemma target_gives whole n j t k x : library_of ds n j t ->
  gives whole (LThing n) k x <-> (k = lib_kind whole /\ t_type t <> Executable /\ x = t_path t) \/ lib_gives k j t x.
Proof.
  intros L. assert (U : forall j' t', library_of ds n j' t' -> j' = j /\ t' = t).
  { intros j' t' [A' B']. destruct L as [A B]. assert (j' = j).
    { destruct B as [<-|B], B' as [<-|B']; auto; [pose proof (decl_one _ _ _ A B')|pose proof (decl_one _ _ _ A' B)|pose proof (decl_one _ _ _ B B')]; congruence. }
    subst j'. pose proof (decl_one _ _ _ A A'). split; congruence. }
  split.
  - intros [[-> N]|(n' & j' & t' & [= <-] & L' & G)].
    + cbn [names_file] in N. destruct N as [(ps & Hp & _)|(j' & t' & L' & N & ->)].
      * exfalso. destruct L as [A [<-|B]]; [pose proof (decl_one _ _ _ A Hp)|pose proof (decl_one _ _ _ B Hp)]; discriminate.
      * destruct (U _ _ L') as [-> ->]. auto.
    + destruct (U _ _ L') as [-> ->]. auto.
  - intros [(-> & N & ->)|G].
    + left. split; [reflexivity|]. right. exists j, t. auto.
    + right. exists n, j, t. auto.
Qed.
Lemma link_item_ok whole it seen d seen' d' : link_item store whole it (seen, d) = Some (seen', d') -> covered whole seen d ->
  (forall k x, In x (contents k d') <-> In x (contents k d) \/ gives whole it k x) /\ covered whole seen' d'.
Proof.
  intros E C. unfold link_item in E. destruct it as [n|p].
  - destruct (existsb (Nat.eqb n) seen) eqn:Es.
    { injection E as <- <-. apply existsb_exists in Es as (y & Hy & Ey). apply Nat.eqb_eq in Ey as <-. split; [|exact C].
      intros k x. split; [auto|]. intros [H|H]; [exact H|]. exact (C n Hy k x H). }
    match type of E with match ?e with _ => _ end = _ => destruct e as [d1|] eqn:E1; [|discriminate] end. injection E as <- <-.
    assert (X : forall k x, In x (contents k d1) <-> In x (contents k d) \/ gives whole (LThing n) k x).
    { destruct (nth_error store n) as [[m|j|ps|f s]|] eqn:En; try discriminate E1.
      - destruct (Hs _ _ En) as (t & Hd & Ht). intros k x. rewrite (link_target_ok whole n t m d d1 Hd Ht E1), (target_gives whole n n t k x); [tauto|].
        split; [exact Hd|auto].
      - destruct (nth_error store j) as [[m| | |]|] eqn:Ej; try discriminate E1. destruct (Hs _ _ Ej) as (t & Hd & Ht). pose proof (Hs _ _ En) as Hb. cbn [ok] in Hb.
        intros k x. rewrite (link_target_ok whole j t m d d1 Hd Ht E1), (target_gives whole n j t k x); [tauto|]. split; auto.
      - injection E1 as <-. pose proof (Hs _ _ En) as Hc. cbn [ok] in Hc. intros k x. rewrite contents_push_all. split.
        + intros [H|[-> H]]; [auto|]. right. left. split; [reflexivity|]. left. eauto.
        + intros [H|[[-> [(ps' & Hp & H)|(j & t & L & _)]]|(n' & j & t & [= <-] & L & _)]]; [auto| | |].
          * pose proof (decl_one _ _ _ Hc Hp) as [= <-]. auto.
          * exfalso. destruct L as [A [<-|B]]; [pose proof (decl_one _ _ _ A Hc)|pose proof (decl_one _ _ _ B Hc)]; discriminate.
          * exfalso. destruct L as [A [<-|B]]; [pose proof (decl_one _ _ _ A Hc)|pose proof (decl_one _ _ _ B Hc)]; discriminate. }
    split; [exact X|]. intros n' [<-|Hn] k x G; apply X; [auto|left; exact (C n' Hn k x G)].
  - injection E as <- <-. assert (X : forall k x, In x (contents k (push_library whole p d)) <-> In x (contents k d) \/ gives whole (LFile p) k x).
    { intros k x. rewrite contents_push_library. unfold gives. cbn [names_file]. split; [tauto|]. intros [H|[H|(n & j & t & Q & _)]]; [auto|auto|discriminate Q]. }
    split; [exact X|]. intros n Hn k x G. apply X. left. exact (C n Hn k x G).
Qed.
Lemma link_items_ok whole l : forall seen d x', link_items store whole l (seen, d) = Some x' -> covered whole seen d ->
  forall k x, In x (contents k (snd x')) <-> In x (contents k d) \/ exists it, In it l /\ gives whole it k x.
Proof.
  induction l as [|it l IH]; intros seen d x' E C k x; cbn [link_items] in E.
  - injection E as <-. cbn. split; [auto|]. intros [H|(it & [] & _)]; exact H.
  - destruct (link_item store whole it (seen, d)) as [[s1 d1]|] eqn:E1; [|discriminate]. destruct (link_item_ok _ _ _ _ _ _ E1 C) as [X C1].
    rewrite (IH _ _ _ E C1 k x), X. split.
    + intros [[H|H]|(it' & Hi & G)]; [auto|right; exists it; split; [now left|exact H]|right; exists it'; split; [now right|exact G]].
    + intros [H|(it' & [<-|Hi] & G)]; [auto|auto|right; eauto].
Qed.
Lemma process_links_ok whole l d d' : process_links store whole l d = Some d' ->
  forall k x, In x (contents k d') <-> In x (contents k d) \/ exists it, given l it /\ gives whole it k x.
Proof.
  intros E k x. unfold process_links in E. destruct l as [l|].
  - destruct (link_items store whole l ([], d)) as [x'|] eqn:E1; [|discriminate]. injection E as <-. rewrite contents_dedup, (link_items_ok _ _ _ _ _ E1); [|intros n []].
    unfold given. split; (intros [H|(it & Hi & G)]; [auto|right; exists it; split; [|exact G]]); [eauto|now destruct Hi as (? & [= <-] & Hi)].
  - injection E as <-. split; [auto|]. intros [H|(it & (l & [=] & _) & _)]. exact H.
Qed.

(** ** Dependencies *)
Definition dep_gives (j : nat) (k : kind) (x : bytes) : Prop := found ds j /\ reaches k j x.
Lemma carried_true k : carried k true.
Proof. destruct k; cbn; auto. Qed.
Lemma use_deps_ok l : forall seen d x', use_deps store l (seen, d) = Some x' ->
  (forall j, In j seen -> forall k x, dep_gives j k x -> In x (contents k d)) ->
  forall k x, In x (contents k (snd x')) <-> In x (contents k d) \/ exists j, In j l /\ dep_gives j k x.
Proof.
  induction l as [|j l IH]; intros seen d x' E C k x; cbn [use_deps] in E.
  - injection E as <-. cbn. split; [auto|]. intros [H|(it & [] & _)]; exact H.
  - destruct (use_dep store j (seen, d)) as [[s1 d1]|] eqn:E1; [|discriminate].
    assert (X : (forall k x, In x (contents k d1) <-> In x (contents k d) \/ dep_gives j k x) /\ (forall n, In n s1 -> forall k x, dep_gives n k x -> In x (contents k d1))).
    { unfold use_dep in E1. destruct (existsb (Nat.eqb j) seen) eqn:Es.
      - injection E1 as <- <-. apply existsb_exists in Es as (y & Hy & Ey). apply Nat.eqb_eq in Ey as <-. split; [|exact C]. intros k' x''. split; [auto|]. intros [H|H]; [exact H|]. exact (C j Hy k' x'' H).
      - destruct (nth_error store j) as [[| | |f s]|] eqn:Ej; try discriminate E1. destruct (Hs _ _ Ej) as (_ & Hf & Hr). injection E1 as <- <-.
        assert (Y : forall k x, In x (contents k (if f then merge s d true else d)) <-> In x (contents k d) \/ dep_gives j k x).
        { intros k' x''. unfold dep_gives. rewrite <- Hf. destruct f.
          - rewrite contents_merge, Hr. pose proof (carried_true k'). tauto.
          - intuition discriminate. }
        split; [exact Y|]. intros n [<-|Hn] k' x'' G; apply Y; [auto|left; exact (C n Hn k' x'' G)]. }
    destruct X as [X C1]. rewrite (IH _ _ _ E C1 k x), X. split.
    + intros [[H|H]|(it' & Hi & G)]; [auto|right; exists j; split; [now left|exact H]|right; exists it'; split; [now right|exact G]].
    + intros [H|(it' & [<-|Hi] & G)]; [auto|auto|right; eauto].
Qed.
Lemma process_deps_ok l d d' : process_deps store l d = Some d' ->
  forall k x, In x (contents k d') <-> In x (contents k d) \/ exists j, given l j /\ dep_gives j k x.
Proof.
  intros E k x. unfold process_deps in E. destruct l as [l|].
  - destruct (use_deps store l ([], d)) as [x'|] eqn:E1; [|discriminate]. injection E as <-. rewrite contents_dedup, (use_deps_ok _ _ _ _ E1); [|intros n []].
    unfold given. split; (intros [H|(it & Hi & G)]; [auto|right; exists it; split; [|exact G]]); [eauto|now destruct Hi as (? & [= <-] & Hi)].
  - injection E as <-. split; [auto|]. intros [H|(it & (l & [=] & _) & _)]. exact H.
Qed.

(** ** Declarations *)
Definition uses (y : decl) (k : kind) (x : bytes) : Prop :=
  (exists it, asked_with y it /\ gives false it k x) \/ (exists it, asked_whole y it /\ gives true it k x) \/ (exists j, asked_dep y j /\ dep_gives j k x).
Lemma uses_reaches i y k x : is_decl i y -> uses y k x -> reaches k i x.
Proof.
  intros Hi. assert (L : forall n j t, asked_with y (LThing n) \/ asked_whole y (LThing n) -> library_of ds n j t -> lib_gives k j t x -> reaches k i x).
  { intros n j t A L [(N & -> & D)|[P R]].
    - apply r_rpath with j t; auto. exists y, n. auto.
    - apply r_library with j t; auto. exists y, n. auto. }
  intros [(it & A & [[-> N]|(n & j & t & -> & Q & G)])|[(it & A & [[-> N]|(n & j & t & -> & Q & G)])|(j & A & F & R)]].
  - exact (r_with root ds i y it x Hi A N).
  - exact (L n j t (or_introl A) Q G).
  - exact (r_whole root ds i y it x Hi A N).
  - exact (L n j t (or_intror A) Q G).
  - exact (r_dependency root ds k i y j x Hi A F R).
Qed.
Lemma links_uses i y j t k x : is_decl i y -> links ds i j t -> lib_gives k j t x -> uses y k x.
Proof.
  intros Hi (y' & n & Hy & A & L) G. rewrite (decl_one _ _ _ Hy Hi) in A. destruct A as [A|A].
  - left. exists (LThing n). split; [exact A|]. right. exists n, j, t. auto.
  - right. left. exists (LThing n). split; [exact A|]. right. exists n, j, t. auto.
Qed.
Lemma reaches_declared i a k x : is_decl i (DDeclare a) ->
  reaches k i x <-> uses (DDeclare a) k x \/ (k = Link_args /\ In x (a_link a)) \/ (k = Compile_args /\ In x (a_compile a)) \/
    (k = Include_dirs /\ In x (map fst (a_incs a))) \/ (k = Sources /\ In x (a_sources a)) \/ (k = Objects /\ In x (a_objects a)).
Proof.
  intros Hi. split.
  - destruct 1 as [i y l p Hy A N|i y l p Hy A N|i j t d L N D|i t d Hy|i t d b Hy|i t p Hy|i t p l Hy|i t p d Hy|i a' x Hy H|i a' x Hy H|i a' d b Hy H|i a' p Hy H|i a' p Hy H
                  |k i d x Hy|k i j t x L P R|k i y j x Hy A F R|k i j w x Hy|k i j s x Hy];
      try (pose proof (decl_one _ _ _ Hi Hy) as Q; first [discriminate Q|injection Q as <-|subst y]).
    + left. left. exists l. split; [exact A|]. left. auto.
    + left. right. left. exists l. split; [exact A|]. left. auto.
    + left. apply (links_uses i _ j t _ _ Hi L). left. auto.
    + auto.
    + auto.
    + right. right. right. left. split; [reflexivity|]. apply in_map_iff. now exists (d, b).
    + auto 10.
    + auto 10.
    + left. apply (links_uses i _ j t _ _ Hi L). right. auto.
    + left. right. right. exists j. split; [exact A|]. split; auto.
  - intros [U|[[-> H]|[[-> H]|[[-> H]|[[-> H]|[-> H]]]]]].
    + now apply uses_reaches with (DDeclare a).
    + now apply r_declared_link with a.
    + now apply r_declared_compile with a.
    + apply in_map_iff in H as ([d b] & <- & H). now apply r_declared_includes with a b.
    + now apply r_declared_sources with a.
    + now apply r_declared_objects with a.
Qed.
Lemma declare_ok i a d : is_decl i (DDeclare a) -> declare store a = Some d -> forall k x, In x (contents k d) <-> reaches k i x.
Proof.
  intros Hi E k x. unfold declare in E.
  match type of E with context[process_links store false (a_with a) ?d0] => set (d0' := d0) in E end.
  destruct (process_links store false (a_with a) d0') as [d1|] eqn:E1; [|discriminate].
  destruct (process_links store true (a_whole a) d1) as [d2|] eqn:E2; [|discriminate].
  rewrite (process_deps_ok _ _ _ E). rewrite (reaches_declared i a k x Hi). unfold uses. cbn [asked_with asked_whole asked_dep].
  assert (X : In x (contents k (Pass (d_lang d2) (d_whole d2) (d_with d2) (d_missing d2) (d_link d2) (d_compile d2) (d_incs d2 ++ a_incs a) (d_sources d2) (d_objects d2) (d_order d2) (d_rpath d2)))
    <-> In x (contents k d2) \/ (k = Include_dirs /\ In x (map fst (a_incs a)))).
  { destruct k; cbn [contents d_with d_whole d_missing d_link d_compile d_incs d_sources d_objects d_order d_rpath]; rewrite ?map_app, ?in_app_iff; intuition discriminate. }
  rewrite X, (process_links_ok _ _ _ _ E2), (process_links_ok _ _ _ _ E1).
  assert (Y : In x (contents k d0') <-> (k = Link_args /\ In x (a_link a)) \/ (k = Compile_args /\ In x (a_compile a)) \/ (k = Sources /\ In x (a_sources a)) \/ (k = Objects /\ In x (a_objects a))).
  { destruct k; cbn [d0' contents d_with d_whole d_missing d_link d_compile d_incs d_sources d_objects d_order d_rpath map In]; intuition discriminate. }
  rewrite Y. tauto.
Qed.

(** ** Targets *)
Lemma generated_cases p : source_file root p ->
  (match language_of p with
   | Some l => if is_header l then path_is_subpath root p else Some false
   | None => path_is_subpath root p
   end) = Some (match below (comps root) (comps p) with Some _ => match language_of p with Some l => is_header l | None => true end | None => false end).
Proof.
  intros (Ha & Hc & Np). destruct OK as [[Hr Nr] _ _ _]. rewrite (subpath_below root p Hr Ha). destruct (language_of p) as [l|]; [|now destruct (below (comps root) (comps p))].
  destruct (is_header l); [now destruct (below (comps root) (comps p))|]. now destruct (below (comps root) (comps p)).
Qed.
Lemma generated_spec p : a_generated root p <->
  file_is_linkable p = false /\ match language_of p with Some l => is_header l | None => true end = true /\ exists l, below (comps root) (comps p) = Some l.
Proof.
  unfold a_generated. split.
  - intros (H1 & H2 & l & H3). split; [|split].
    + destruct (file_is_linkable p) eqn:E; [|reflexivity]. apply library_spec in E. contradiction.
    + destruct (language_of p) as [g|] eqn:E; [|reflexivity]. apply language_of_spec in E. destruct (H2 _ E) as [<-|[<-|[]]]; reflexivity.
    + exists l. now apply below_spec.
  - intros (H1 & H2 & l & H3). split; [|split].
    + intros H. apply library_spec in H. congruence.
    + intros g Hg. apply language_of_spec in Hg. rewrite Hg in H2. destruct g; try discriminate H2; cbn; auto.
    + exists l. now apply below_spec.
Qed.
Lemma header_dirs_ok ps dirs : Forall (source_file root) ps -> header_dirs root ps = Some dirs ->
  forall d, In d (map fst dirs) <-> exists p, In p ps /\ a_generated root p /\ directory_of p d.
Proof.
  intros H. revert dirs. induction H as [|p ps Hp H IH]; intros dirs E d; cbn [header_dirs] in E.
  - injection E as <-. cbn. split; [tauto|]. now intros (p & [] & _).
  - destruct (header_dirs root ps) as [rest|]; [|discriminate]. specialize (IH _ eq_refl d).
    assert (Skip : ~ a_generated root p -> In d (map fst rest) <-> exists q, In q (p :: ps) /\ a_generated root q /\ directory_of q d).
    { intros N. rewrite IH. split; [intros (q & Hq & G); exists q; split; [now right|exact G]|]. intros (q & [<-|Hq] & G & D); [contradiction|exists q; auto]. }
    pose proof Hp as (Ha & _ & _). destruct OK as [[Hr Nr] _ _ _].
    assert (Some' : match below (comps root) (comps p) with Some _ => true | None => false end = true -> match language_of p with Some l => is_header l | None => true end = true -> file_is_linkable p = false ->
      (do dir <- path_dirname p; Some ((dir, false) :: rest)) = Some dirs -> In d (map fst dirs) <-> exists q, In q (p :: ps) /\ a_generated root q /\ directory_of q d).
    { intros B1 B2 B3 B4. destruct (path_dirname p) as [dir|] eqn:Ed; [|discriminate]. injection B4 as <-.
      destruct (below (comps root) (comps p)) as [l|] eqn:Eb; [|discriminate].
      assert (Nc : comps p <> []). { apply below_spec in Eb. rewrite Eb. destruct (comps root); [contradiction|discriminate]. }
      assert (G : a_generated root p) by (apply generated_spec; eauto).
      pose proof Ed as Ed'. apply (directory_ok p dir Ha Nc) in Ed'. cbn [map fst In]. rewrite IH. split.
      - intros [<-|(q & Hq & X)]; [exists p; split; [now left|auto]|exists q; split; [now right|exact X]].
      - intros (q & [<-|Hq] & G' & D); [left|right; eauto]. apply (directory_ok p d Ha Nc) in D. congruence. }
    rewrite (subpath_below root p Hr Ha) in E.
    destruct (file_is_linkable p) eqn:El.
    { injection E as <-. apply Skip. intros G. apply generated_spec in G as (G & _). congruence. }
    destruct (language_of p) as [l|] eqn:E1; [destruct (is_header l) eqn:E2|].
    + destruct (below (comps root) (comps p)) as [r|] eqn:Eb; [now apply Some'|]. injection E as <-. apply Skip. intros G. apply generated_spec in G as (_ & _ & r & G). congruence.
    + injection E as <-. apply Skip. intros G. apply generated_spec in G as (_ & G & _). rewrite E1 in G. congruence.
    + destruct (below (comps root) (comps p)) as [r|] eqn:Eb; [now apply Some'|]. injection E as <-. apply Skip. intros G. apply generated_spec in G as (_ & _ & r & G). congruence.
Qed.
Definition a_source_of (i : nat) (t : targ) (p : bytes) : Prop := In p (t_files t) \/ reaches Sources i p.
Lemma reaches_target i t k x : is_decl i (DTarget t) ->
  reaches k i x <-> uses (DTarget t) k x \/ (k = Rpaths /\ In x (t_rpaths t)) \/ (k = Include_dirs /\ In x (map fst (t_incs t))) \/
    (k = Libraries /\ library x /\ a_source_of i t x) \/
    (k = Headers /\ exists p l, a_source_of i t p /\ a_generated root p /\ comps p = comps root ++ l /\ x = render false l) \/
    (k = Include_dirs /\ t_implicit t = true /\ exists p, a_source_of i t p /\ a_generated root p /\ directory_of p x).
Proof.
  intros Hi. split.
  - destruct 1 as [i y l p Hy A N|i y l p Hy A N|i j t' d L N D|i t' d Hy H|i t' d b Hy H|i t' p Hy H1 H2|i t' p l Hy H1 H2 H3|i t' p d Hy H1 H2 H3 H4|i a' x Hy H|i a' x Hy H|i a' d b Hy H|i a' p Hy H|i a' p Hy H
                  |k i d x Hy|k i j t' x L P R|k i y j x Hy A F R|k i j w x Hy|k i j s x Hy];
      try (pose proof (decl_one _ _ _ Hi Hy) as Q; first [discriminate Q|injection Q as <-|subst y]).
    + left. left. exists l. split; [exact A|]. left. auto.
    + left. right. left. exists l. split; [exact A|]. left. auto.
    + left. apply (links_uses i _ j t' _ _ Hi L). left. auto.
    + auto.
    + right. right. left. split; [reflexivity|]. apply in_map_iff. now exists (d, b).
    + right. right. right. left. auto.
    + right. right. right. right. left. split; [reflexivity|]. exists p, l. auto.
    + right. right. right. right. right. split; [reflexivity|]. split; [exact H1|]. exists p. auto.
    + left. apply (links_uses i _ j t' _ _ Hi L). right. auto.
    + left. right. right. exists j. split; [exact A|]. split; auto.
  - intros [U|[[-> H]|[[-> H]|[(-> & H1 & H2)|[(-> & p & l & H1 & H2 & H3 & ->)|(-> & H0 & p & H1 & H2 & H3)]]]]].
    + now apply uses_reaches with (DTarget t).
    + now apply r_own_rpath with t.
    + apply in_map_iff in H as ([d b] & <- & H). now apply r_own_includes with t b.
    + now apply r_library_source with t.
    + now apply r_header with t p.
    + now apply r_header_dir with t p.
Qed.
Lemma create_target_ok i t m : is_decl i (DTarget t) -> create_target root store t = Some m -> target_ok i t m.
Proof.
  intros Hi E. unfold create_target in E.
  destruct (process_links store false (t_with t) nothing) as [d1|] eqn:E1; [|discriminate].
  destruct (process_links store true (t_whole t) d1) as [d2|] eqn:E2; [|discriminate].
  destruct (process_deps store (t_deps t) d2) as [d3|] eqn:E3; [|discriminate].
  assert (U : forall k x, In x (contents k d3) <-> uses (DTarget t) k x).
  { intros k x. rewrite (process_deps_ok _ _ _ E3), (process_links_ok _ _ _ _ E2), (process_links_ok _ _ _ _ E1). unfold uses. cbn [asked_with asked_whole asked_dep].
    assert (Y : ~ In x (contents k nothing)) by (destruct k; intros []). tauto. }
  assert (Src : forall p, In p (t_files t ++ d_sources d3) <-> a_source_of i t p).
  { intros p. rewrite in_app_iff. unfold a_source_of. rewrite (reaches_target i t Sources p Hi). change (In p (d_sources d3)) with (In p (contents Sources d3)). rewrite U. intuition discriminate. }
  assert (Good : Forall (source_file root) (t_files t ++ d_sources d3)).
  { apply Forall_forall. intros p Hp. apply Src in Hp as [Hp|Hp]; [|now apply (source_ok _ _ _ Hp)].
    destruct OK as [_ O _ _]. destruct (O t) as (_ & _ & F); [eapply nth_error_In; exact Hi|]. rewrite Forall_forall in F. auto. }
  pose proof OK as [[Hr Nr] _ _ _].
  destruct (push_sources_ok root _ _ [] Hr Nr Good (sorts_empty root)) as (s & Es & [S1 S2 S3 (gen & S4 & S5) _ _]). rewrite Es in E. cbn [app] in S1, S4.
  match type of E with match ?e with _ => _ end = _ => destruct e as [dirs|] eqn:Ed; [|discriminate] end.
  match type of E with (if ?e then _ else _) = _ => destruct e; [discriminate|] end.
  match type of E with match ?e with _ => _ end = _ => destruct e as [lang'|]; [|discriminate] end.
  destruct lang' as [l|]; [|discriminate]. injection E as <-.
  assert (Dirs : forall d, In d (map fst dirs) <-> t_implicit t = true /\ exists p, a_source_of i t p /\ a_generated root p /\ directory_of p d).
  { intros d. destruct (t_implicit t).
    - rewrite (header_dirs_ok _ _ Good Ed). split; [intros (p & Hp & G); split; [reflexivity|]; exists p; split; [now apply Src|exact G]|].
      intros (_ & p & Hp & G). exists p. split; [now apply Src|exact G].
    - injection Ed as <-. cbn. intuition discriminate. }
  assert (Links : forall x, In x (so_link s) <-> library x /\ a_source_of i t x).
  { intros x. rewrite (selected_In _ _ _ S1). rewrite Src. tauto. }
  assert (Order : forall x, In x (so_order s) <-> exists p l, a_source_of i t p /\ a_generated root p /\ comps p = comps root ++ l /\ x = render false l).
  { intros x. split.
    - intros H. destruct (Forall2_in_r _ _ _ _ S5 H) as (p & Hp & q & Eq & ->). apply (selected_In _ _ _ S4) in Hp as [Hp G]. exists p, q. split; [now apply Src|auto].
    - intros (p & q & Hp & G & Eq & ->). assert (Hg : In p gen) by (apply (selected_In _ _ _ S4); split; [now apply Src|exact G]).
      destruct (Forall2_in_l _ _ _ _ S5 Hg) as (r & Hr' & q' & Eq' & ->). rewrite Eq in Eq'. apply app_inv_head in Eq' as ->. exact Hr'. }
  assert (In1 : forall k x, k <> Link_args -> In x (contents k (Pass (Some l) (d_whole d3) (d_with d3 ++ so_link s) (d_missing d3) (d_link d3) (d_compile d3) (t_incs t ++ d_incs d3 ++ dirs)
      (d_sources d3) (d_objects d3) (d_order d3 ++ so_order s) (d_rpath d3 ++ t_rpaths t))) <-> reaches k i x).
  { intros k x Nk. rewrite (reaches_target i t k x Hi), <- U. pose proof (Links x). pose proof (Order x). pose proof (Dirs x).
    destruct k; try (exfalso; congruence); cbn [contents d_with d_whole d_missing d_link d_compile d_incs d_sources d_objects d_order d_rpath]; rewrite ?map_app, ?in_app_iff; intuition discriminate. }
  assert (In2 : forall x, In x (d_link d3) <-> reaches Link_args i x).
  { intros x. rewrite (reaches_target i t Link_args x Hi), <- U. cbn [contents]. intuition discriminate. }
  constructor; cbn [m_type m_path m_internal m_passed]; [reflexivity|reflexivity| |].
  - intros k x. destruct k; try (rewrite <- In1 by discriminate; cbn [contents d_with d_whole d_missing d_link d_compile d_incs d_sources d_objects d_order d_rpath d_lang]; intuition discriminate).
    cbn [contents d_link]. rewrite in_app_iff, In2. intuition.
  - intros k x Nk. destruct k; try (exfalso; congruence); try (rewrite <- In1 by discriminate);
      cbn [contents passes d_with d_whole d_missing d_link d_compile d_incs d_sources d_objects d_order d_rpath d_lang];
      try (destruct (t_type t); cbn [is_static In]; rewrite ?In2; intuition discriminate); cbn [In]; tauto.
Qed.
Lemma step_ok i x v : is_decl i x -> step root store x = Some v -> ok i v.
Proof.
  intros Hi E. destruct x as [t|j|ps|a|d| |j w|j s]; cbn [step] in E.
  - destruct (create_target root store t) as [m|] eqn:Em; [|discriminate]. injection E as <-. exists t. split; [exact Hi|]. now apply create_target_ok.
  - destruct (nth_error store j) as [[| | |]|]; try discriminate. injection E as <-. exact Hi.
  - injection E as <-. exact Hi.
  - destruct (declare store a) as [d|] eqn:Ed; [|discriminate]. injection E as <-. split; [eexists; split; [exact Hi|exact I]|]. split.
    + split; [intros _|reflexivity]. now apply f_declared with a.
    + now apply declare_ok with a.
  - injection E as <-. split; [eexists; split; [exact Hi|exact I]|]. split; [split; [intros _; now apply f_found with d|reflexivity]|].
    intros k x. split; [intros H; now apply r_found with d|].
    destruct 1 as [i y l p Hy A N|i y l p Hy A N|i j t' e L N D|i t' e Hy H|i t' e b Hy H|i t' p Hy H1 H2|i t' p l Hy H1 H2 H3|i t' p e Hy H1 H2 H3 H4|i a' x Hy H|i a' x Hy H|i a' e b Hy H|i a' p Hy H|i a' p Hy H
                  |k i e x Hy H|k i j t' x L P R|k i y j x Hy A F R|k i j w x Hy|k i j s x Hy];
      try (pose proof (decl_one _ _ _ Hi Hy) as Q; first [discriminate Q|injection Q as <-|subst y]); try contradiction; auto.
    + destruct L as (y & n & Hy & [A|A] & _); rewrite (decl_one _ _ _ Hy Hi) in A; contradiction.
    + destruct L as (y & n & Hy & [A|A] & _); rewrite (decl_one _ _ _ Hy Hi) in A; contradiction.
  - injection E as <-. split; [eexists; split; [exact Hi|exact I]|]. split.
    + split; [discriminate|]. destruct 1 as [? ? Hy|? ? Hy|? ? ? Hy|? ? ? Hy]; pose proof (decl_one _ _ _ Hi Hy); discriminate.
    + intros k x. split; [destruct k; intros []|].
      destruct 1 as [i y l p Hy A N|i y l p Hy A N|i j t' e L N D|i t' e Hy H|i t' e b Hy H|i t' p Hy H1 H2|i t' p l Hy H1 H2 H3|i t' p e Hy H1 H2 H3 H4|i a' x Hy H|i a' x Hy H|i a' e b Hy H|i a' p Hy H|i a' p Hy H
                  |k i e x Hy H|k i j t' x L P R|k i y j x Hy A F R|k i j w x Hy|k i j s x Hy];
      try (pose proof (decl_one _ _ _ Hi Hy) as Q; first [discriminate Q|injection Q as <-|subst y]); try contradiction; auto.
      * destruct L as (y & n & Hy & [A|A] & _); rewrite (decl_one _ _ _ Hy Hi) in A; contradiction.
      * destruct L as (y & n & Hy & [A|A] & _); rewrite (decl_one _ _ _ Hy Hi) in A; contradiction.
  - destruct (nth_error store j) as [[| | |f d]|] eqn:Ej; try discriminate. injection E as <-. destruct (Hs _ _ Ej) as (_ & Hf & Hr).
    split; [eexists; split; [exact Hi|exact I]|]. split.
    + rewrite Hf. split; [now apply f_partial with w|]. destruct 1 as [? ? Hy|? ? Hy|? ? ? Hy|? ? ? Hy]; pose proof (decl_one _ _ _ Hi Hy) as Q; try discriminate. injection Q as <- <-. assumption.
    + intros k x. transitivity (keeps w k /\ reaches k j x).
      { rewrite <- Hr. destruct w as [w1 w2 w3 w4 w5], k; cbn [contents partial keeps d_with d_whole d_missing d_link d_compile d_incs d_sources d_objects d_order d_rpath want_compile want_includes want_link want_links want_sources];
          try (destruct w1; cbn [In map]; intuition discriminate); try (destruct w2; cbn [In map]; intuition discriminate); try (destruct w3; cbn [In map]; intuition discriminate);
          try (destruct w4; cbn [In map]; intuition discriminate); try (destruct w5; cbn [In map]; intuition discriminate). }
      split; [intros [K R]; now apply r_partial with j w|].
      destruct 1 as [i y l p Hy A N|i y l p Hy A N|i j' t' e L N D|i t' e Hy H|i t' e b Hy H|i t' p Hy H1 H2|i t' p l Hy H1 H2 H3|i t' p e Hy H1 H2 H3 H4|i a' x Hy H|i a' x Hy H|i a' e b Hy H|i a' p Hy H|i a' p Hy H
                  |k i e x Hy H|k i j' t' x L P R|k i y j' x Hy A F R|k i j' w' x Hy K R|k i j' s x Hy R];
      try (pose proof (decl_one _ _ _ Hi Hy) as Q; first [discriminate Q|injection Q as <- <-|subst y]); try contradiction; auto.
      * destruct L as (y & n & Hy & [A|A] & _); rewrite (decl_one _ _ _ Hy Hi) in A; contradiction.
      * destruct L as (y & n & Hy & [A|A] & _); rewrite (decl_one _ _ _ Hy Hi) in A; contradiction.
  - destruct (nth_error store j) as [[| | |f d]|] eqn:Ej; try discriminate. injection E as <-. destruct (Hs _ _ Ej) as (_ & Hf & Hr).
    split; [eexists; split; [exact Hi|exact I]|]. split.
    + rewrite Hf. split; [now apply f_system with s|]. destruct 1 as [? ? Hy|? ? Hy|? ? ? Hy|? ? ? Hy]; pose proof (decl_one _ _ _ Hi Hy) as Q; try discriminate. injection Q as <- <-. assumption.
    + intros k x. transitivity (reaches k j x).
      { rewrite <- Hr. destruct k; cbn [contents as_system d_with d_whole d_missing d_link d_compile d_incs d_sources d_objects d_order d_rpath]; try tauto.
        rewrite map_map. cbn [fst]. reflexivity. }
      split; [intros R; now apply r_system with j s|].
      destruct 1 as [i y l p Hy A N|i y l p Hy A N|i j' t' e L N D|i t' e Hy H|i t' e b Hy H|i t' p Hy H1 H2|i t' p l Hy H1 H2 H3|i t' p e Hy H1 H2 H3 H4|i a' x Hy H|i a' x Hy H|i a' e b Hy H|i a' p Hy H|i a' p Hy H
                  |k i e x Hy H|k i j' t' x L P R|k i y j' x Hy A F R|k i j' w' x Hy K R|k i j' s' x Hy R];
      try (pose proof (decl_one _ _ _ Hi Hy) as Q; first [discriminate Q|injection Q as <- <-|subst y]); try contradiction; auto.
      * destruct L as (y & n & Hy & [A|A] & _); rewrite (decl_one _ _ _ Hy Hi) in A; contradiction.
      * destruct L as (y & n & Hy & [A|A] & _); rewrite (decl_one _ _ _ Hy Hi) in A; contradiction.
Qed.
End Project.

Lemma run_ok root ds : ok_project root ds -> forall rest before store store', ds = before ++ rest -> length store = length before ->
  (forall i v, nth_error store i = Some v -> ok root ds i v) -> run_decls root store rest = Some store' ->
  length store' = length ds /\ forall i v, nth_error store' i = Some v -> ok root ds i v.
Proof.
  intros OK rest. induction rest as [|x rest IH]; intros before store store' Eds Len Hs E; cbn [run_decls] in E.
  - injection E as <-. rewrite app_nil_r in Eds. subst before. auto.
  - destruct (step root store x) as [v|] eqn:Ev; [|discriminate].
    apply (IH (before ++ [x]) (store ++ [v]) store'); [now rewrite <- app_assoc|rewrite !app_length; cbn; lia| |exact E].
    intros i u Hu. destruct (lt_eq_lt_dec i (length store)) as [[L| ->]|L].
    + rewrite nth_error_app1 in Hu by exact L. auto.
    + rewrite nth_error_app2, Nat.sub_diag in Hu by lia. cbn in Hu. injection Hu as <-.
      apply (step_ok root ds OK store Hs (length store) x v); [|exact Ev]. unfold is_decl. rewrite Eds, Len, nth_error_app2, Nat.sub_diag by lia. reflexivity.
    + assert (nth_error (store ++ [v]) i = None) by (apply nth_error_None; rewrite app_length; cbn; lia). congruence.
Qed.
