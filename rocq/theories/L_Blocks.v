(** Lemmas about the order of the arguments that targets take from what they use. *)
From Coq Require Import Lia.
From Verif Require Import Base M_Path M_Escape M_Backend M_Compile M_Link S_Link.
Local Arguments B _ : simpl never.

Lemma together_refl b : together b b.
Proof. exists [], []. now rewrite app_nil_r. Qed.
Lemma together_app_l b l r : together b l -> together b (l ++ r).
Proof. intros (x & y & ->). exists x, (y ++ r). now rewrite <- !app_assoc. Qed.
Lemma together_app_r b l r : together b r -> together b (l ++ r).
Proof. intros (x & y & ->). exists (l ++ x), y. now rewrite <- !app_assoc. Qed.
Definition dstep (acc : list bytes) (s : bytes) := if beqb s (B "-pthread") && existsb (beqb s) acc then acc else acc ++ [s].
Lemma fold_dstep l acc : exists r, fold_left dstep l acc = acc ++ r.
Proof.
  revert acc. induction l as [|s l IH]; intros acc; cbn [fold_left]; [exists []; now rewrite app_nil_r|].
  destruct (IH (dstep acc s)) as [r ->]. unfold dstep. destruct (_ && _); [now exists r|]. exists (s :: r). now rewrite <- app_assoc.
Qed.
Lemma fold_dstep_plain b acc : ~ In (B "-pthread") b -> fold_left dstep b acc = acc ++ b.
Proof.
  revert acc. induction b as [|s b IH]; intros acc N; cbn [fold_left]; [now rewrite app_nil_r|].
  assert (dstep acc s = acc ++ [s]) as ->.
  { unfold dstep. destruct (beqb_spec s (B "-pthread")) as [->|]; [elim N; now left|reflexivity]. }
  rewrite IH by (intros H; apply N; now right). now rewrite <- app_assoc.
Qed.
Lemma together_dedup b l : ~ In (B "-pthread") b -> together b l -> together b (dedup_args l).
Proof.
  intros N (x & y & ->). unfold dedup_args. fold dstep. rewrite !fold_left_app, (fold_dstep_plain b) by exact N.
  destruct (fold_dstep y (fold_left dstep x [] ++ b)) as [r ->]. exists (fold_left dstep x []), r. now rewrite <- app_assoc.
Qed.
Lemma fold_dstep_once l acc : count_occ (list_eq_dec Ascii.ascii_dec) acc (B "-pthread") <= 1 ->
  count_occ (list_eq_dec Ascii.ascii_dec) (fold_left dstep l acc) (B "-pthread") <= 1.
Proof.
  revert acc. induction l as [|s l IH]; intros acc H; cbn [fold_left]; [exact H|]. apply IH. unfold dstep.
  destruct (beqb_spec s (B "-pthread")) as [->|N]; cbn [andb].
  - destruct (existsb (beqb (B "-pthread")) acc) eqn:E; [exact H|]. rewrite count_occ_app, count_occ_cons_eq by reflexivity.
    assert (count_occ (list_eq_dec Ascii.ascii_dec) acc (B "-pthread") = 0) as ->; [|cbn; lia].
    apply count_occ_not_In. intros I. assert (existsb (beqb (B "-pthread")) acc = true); [|congruence].
    apply existsb_exists. exists (B "-pthread"). split; [exact I|apply beqb_refl].
  - rewrite count_occ_app, count_occ_cons_neq by (intros X; now apply N). cbn. lia.
Qed.
Lemma dedup_once l : count_occ (list_eq_dec Ascii.ascii_dec) (dedup_args l) (B "-pthread") <= 1.
Proof. unfold dedup_args. fold dstep. apply fold_dstep_once. cbn. lia. Qed.

(** [f] is one of the two lists of arguments *)
Definition args (c : bool) (d : pass) : list bytes := if c then d_compile d else d_link d.
Lemma args_push c w p d : args c (push_library w p d) = args c d.
Proof. destruct c, w; reflexivity. Qed.
Lemma args_push_all c w ps d : args c (fold_left (fun d p => push_library w p d) ps d) = args c d.
Proof. revert d. induction ps as [|p ps IH]; intros d; cbn [fold_left]; [reflexivity|]. now rewrite IH, args_push. Qed.
Lemma args_dedup c d : args c (dedup_pass d) = dedup_args (args c d).
Proof. destruct c; reflexivity. Qed.
Lemma args_merge c s d dep : args c (merge s d dep) = args c d ++ (if c then if dep then args c s else [] else args c s).
Proof. destruct c, dep; cbn; now rewrite ?app_nil_r. Qed.
Lemma link_target_args c w m d d' : link_target w m d = Some d' -> args c d' = args c d ++ (if c then [] else d_link (m_passed m)).
Proof.
  unfold link_target. destruct (_ && _); [discriminate|]. intros E.
  assert (X : exists d1, args c d1 = args c d /\ d' = merge (m_passed m) d1 false).
  { destruct (is_static (m_type m)).
    - injection E as <-. eexists. split; [|reflexivity]. destruct (is_executable (m_type m)); [reflexivity|apply args_push].
    - destruct (path_dirname (m_path m)) as [dir|]; [|discriminate]. injection E as <-. eexists. split; [|reflexivity].
      destruct (existsb _ _); destruct (is_executable (m_type m)); destruct c, w; reflexivity. }
  destruct X as (d1 & <- & ->). rewrite args_merge. now destruct c.
Qed.
Lemma link_items_keep c b store w l x x' : link_items store w l x = Some x' -> together b (args c (snd x)) -> together b (args c (snd x')).
Proof.
  revert x. induction l as [|it l IH]; intros [seen d] E T; cbn [link_items] in E; [now injection E as <-|].
  destruct (link_item store w it (seen, d)) as [x1|] eqn:E1; [|discriminate]. apply (IH _ E). clear E IH. cbn [snd] in T.
  destruct it as [i|p]; cbn [link_item] in E1; [|injection E1 as <-; cbn [snd]; now rewrite args_push].
  destruct (existsb (Nat.eqb i) seen); [injection E1 as <-; exact T|].
  destruct (nth_error store i) as [[m|j|ps|f s]|]; try discriminate E1.
  - destruct (link_target w m d) eqn:El; [|discriminate]. injection E1 as <-. cbn [snd]. rewrite (link_target_args c _ _ _ _ El). now apply together_app_l.
  - destruct (nth_error store j) as [[m| | |]|]; try discriminate E1. destruct (link_target w m d) eqn:El; [|discriminate]. injection E1 as <-. cbn [snd].
    rewrite (link_target_args c _ _ _ _ El). now apply together_app_l.
  - injection E1 as <-. cbn [snd]. now rewrite args_push_all.
Qed.
Lemma process_links_keep c b store w o d d' : ~ In (B "-pthread") b -> process_links store w o d = Some d' -> together b (args c d) -> together b (args c d').
Proof.
  intros N E T. destruct o as [l|]; cbn [process_links] in E; [|now injection E as <-].
  destruct (link_items store w l ([], d)) as [x|] eqn:El; [|discriminate]. injection E as <-. rewrite args_dedup. apply together_dedup; [exact N|].
  apply (link_items_keep c b _ _ _ _ _ El). exact T.
Qed.
(** the target that an element stands for *)
Definition stands (store : list thing) (i : nat) (m : made) : Prop :=
  nth_error store i = Some (VTarget m) \/ exists j, nth_error store i = Some (VBoth j) /\ nth_error store j = Some (VTarget m).
Lemma link_items_give store w l x x' : link_items store w l x = Some x' ->
  (forall i m, In i (fst x) -> stands store i m -> together (d_link (m_passed m)) (d_link (snd x))) ->
  forall i m, In (LThing i) l \/ In i (fst x) -> stands store i m -> together (d_link (m_passed m)) (d_link (snd x')).
Proof.
  revert x. induction l as [|it l IH]; intros [seen d] E Hs i m Hi St; cbn [link_items] in E.
  { injection E as <-. destruct Hi as [[]|Hi]. now apply (Hs i). }
  destruct (link_item store w it (seen, d)) as [[seen1 d1]|] eqn:E1; [|discriminate].
  assert (Y : (forall i m, In i seen1 -> stands store i m -> together (d_link (m_passed m)) (d_link d1)) /\ forall i, it = LThing i \/ In i seen -> In i seen1).
  { clear E IH Hi St i m. cbn [fst snd] in *. destruct it as [i|p]; cbn [link_item] in E1.
    2: { injection E1 as <- <-. split; [|intros i [[=]|H]; exact H]. intros i m Hi St. pose proof (Hs i m Hi St) as H. change (together (d_link (m_passed m)) (args false (push_library w p d))). now rewrite args_push. }
    destruct (existsb (Nat.eqb i) seen) eqn:Ex.
    { injection E1 as <- <-. split; [exact Hs|]. intros n [[= <-]|H]; [|exact H]. apply existsb_exists in Ex as (y & Hy & E). apply Nat.eqb_eq in E as ->. exact Hy. }
    assert (Z : exists d', Some d' = Some d1 /\ seen1 = i :: seen /\ together (d_link d) (d_link d') /\ forall m, stands store i m -> together (d_link (m_passed m)) (d_link d')).
    { unfold stands. destruct (nth_error store i) as [[m|j|ps|f s]|] eqn:En; try discriminate E1.
      - destruct (link_target w m d) eqn:El; [|discriminate]. injection E1 as <- <-. eexists. split; [reflexivity|]. split; [reflexivity|].
        pose proof (link_target_args false _ _ _ _ El) as A. cbn [args] in A. rewrite A. split; [apply together_app_l, together_refl|].
        intros m' [[= <-]|(j & [=] & _)]. apply together_app_r, together_refl.
      - destruct (nth_error store j) as [[m| | |]|] eqn:Ej; try discriminate E1. destruct (link_target w m d) eqn:El; [|discriminate]. injection E1 as <- <-. eexists. split; [reflexivity|]. split; [reflexivity|].
        pose proof (link_target_args false _ _ _ _ El) as A. cbn [args] in A. rewrite A. split; [apply together_app_l, together_refl|].
        intros m' [[=]|(j' & [= <-] & E')]. rewrite Ej in E'. injection E' as <-. apply together_app_r, together_refl.
      - injection E1 as <- <-. eexists. split; [reflexivity|]. split; [reflexivity|]. pose proof (args_push_all false w ps d) as A. cbn [args] in A. rewrite A.
        split; [apply together_refl|]. intros m [[=]|(j & [=] & _)]. }
    destruct Z as (d' & [= ->] & -> & (u & v & Z1) & Z2). split.
    - intros n m [<-|Hn] St; [now apply Z2|]. destruct (Hs n m Hn St) as (p & q & H). rewrite Z1, H. exists (u ++ p), (q ++ v). now rewrite <- !app_assoc.
    - intros n [[= <-]|H]; [now left|now right]. }
  destruct Y as [Y1 Y2]. apply (IH _ E Y1 i m); [|exact St]. cbn [fst] in *. destruct Hi as [[->|Hi]|Hi]; auto.
Qed.
Lemma process_links_give store w o d d' i m : process_links store w o d = Some d' -> given o (LThing i) -> stands store i m ->
  ~ In (B "-pthread") (d_link (m_passed m)) -> together (d_link (m_passed m)) (d_link d').
Proof.
  intros E (l & -> & Hi) St N. cbn [process_links] in E. destruct (link_items store w l ([], d)) as [x|] eqn:El; [|discriminate]. injection E as <-.
  change (together (d_link (m_passed m)) (dedup_args (d_link (snd x)))). apply together_dedup; [exact N|].
  apply (link_items_give _ _ _ _ _ El) with i; auto. intros n k [].
Qed.
Lemma use_deps_keep c b store l x x' : use_deps store l x = Some x' -> together b (args c (snd x)) -> together b (args c (snd x')).
Proof.
  revert x. induction l as [|j l IH]; intros [seen d] E T; cbn [use_deps] in E; [now injection E as <-|].
  destruct (use_dep store j (seen, d)) as [x1|] eqn:E1; [|discriminate]. apply (IH _ E). clear E IH. cbn [snd] in T. cbn [use_dep] in E1.
  destruct (existsb (Nat.eqb j) seen); [injection E1 as <-; exact T|]. destruct (nth_error store j) as [[| | |f s]|]; try discriminate E1. injection E1 as <-. cbn [snd].
  destruct f; [|exact T]. rewrite args_merge. now apply together_app_l.
Qed.
Lemma use_deps_give c store l x x' : use_deps store l x = Some x' ->
  (forall j s, In j (fst x) -> nth_error store j = Some (VDep true s) -> together (args c s) (args c (snd x))) ->
  forall j s, In j l \/ In j (fst x) -> nth_error store j = Some (VDep true s) -> together (args c s) (args c (snd x')).
Proof.
  revert x. induction l as [|n l IH]; intros [seen d] E Hs j s Hj Ej; cbn [use_deps] in E.
  { injection E as <-. destruct Hj as [[]|Hj]. now apply (Hs j). }
  destruct (use_dep store n (seen, d)) as [[seen1 d1]|] eqn:E1; [|discriminate]. cbn [use_dep] in E1. cbn [fst snd] in *.
  assert (Y : (forall j s, In j seen1 -> nth_error store j = Some (VDep true s) -> together (args c s) (args c d1)) /\ In n seen1 /\ forall j, In j seen -> In j seen1).
  { destruct (existsb (Nat.eqb n) seen) eqn:Ex.
    { injection E1 as <- <-. split; [exact Hs|]. split; [|auto]. apply existsb_exists in Ex as (y & Hy & X). apply Nat.eqb_eq in X as ->. exact Hy. }
    destruct (nth_error store n) as [[| | |f s0]|] eqn:En; try discriminate E1. injection E1 as <- <-. split; [|split; [now left|now right]].
    intros i s' [<-|Hi] Ei.
    - rewrite En in Ei. injection Ei as -> ->. rewrite args_merge. apply together_app_r. destruct c; apply together_refl.
    - pose proof (Hs i s' Hi Ei) as H. destruct f; [|exact H]. rewrite args_merge. now apply together_app_l. }
  destruct Y as (Y1 & Y2 & Y3). apply (IH _ E Y1 j s); [|exact Ej]. cbn [fst]. destruct Hj as [[<-|Hj]|Hj]; auto.
Qed.
Lemma process_deps_keep c b store o d d' : ~ In (B "-pthread") b -> process_deps store o d = Some d' -> together b (args c d) -> together b (args c d').
Proof.
  intros N E T. destruct o as [l|]; cbn [process_deps] in E; [|now injection E as <-].
  destruct (use_deps store l ([], d)) as [x|] eqn:El; [|discriminate]. injection E as <-. rewrite args_dedup. apply together_dedup; [exact N|].
  apply (use_deps_keep c b _ _ _ _ El). exact T.
Qed.
Lemma process_deps_give c store o d d' j s : process_deps store o d = Some d' -> given o j -> nth_error store j = Some (VDep true s) ->
  ~ In (B "-pthread") (args c s) -> together (args c s) (args c d').
Proof.
  intros E (l & -> & Hj) Ej N. cbn [process_deps] in E. destruct (use_deps store l ([], d)) as [x|] eqn:El; [|discriminate]. injection E as <-.
  rewrite args_dedup. apply together_dedup; [exact N|]. apply (use_deps_give c _ _ _ _ El) with j; auto. intros n k [].
Qed.
Lemma process_links_compile store w o d d' : process_links store w o d = Some d' -> d_compile d = [] -> d_compile d' = [].
Proof.
  intros E H. destruct o as [l|]; cbn [process_links] in E; [|now injection E as <-].
  destruct (link_items store w l ([], d)) as [x|] eqn:El; [|discriminate]. injection E as <-. cbn [dedup_pass d_compile].
  assert (X : d_compile (snd x) = []); [|now rewrite X].
  assert (G : forall l x x', link_items store w l x = Some x' -> d_compile (snd x) = [] -> d_compile (snd x') = []).
  { clear. induction l as [|it l IH]; intros [seen d] x' E T; cbn [link_items] in E; [now injection E as <-|].
    destruct (link_item store w it (seen, d)) as [x1|] eqn:E1; [|discriminate]. apply (IH _ _ E). clear E IH. cbn [snd] in T.
    destruct it as [i|p]; cbn [link_item] in E1; [|injection E1 as <-; cbn [snd]; pose proof (args_push true w p d) as A; cbn [args] in A; now rewrite A].
    destruct (existsb (Nat.eqb i) seen); [injection E1 as <-; exact T|].
    destruct (nth_error store i) as [[m|j|ps|f s]|]; try discriminate E1.
    - destruct (link_target w m d) eqn:El; [|discriminate]. injection E1 as <-. cbn [snd]. pose proof (link_target_args true _ _ _ _ El) as A. cbn [args] in A. rewrite A, T. reflexivity.
    - destruct (nth_error store j) as [[m| | |]|]; try discriminate E1. destruct (link_target w m d) eqn:El; [|discriminate]. injection E1 as <-. cbn [snd].
      pose proof (link_target_args true _ _ _ _ El) as A. cbn [args] in A. rewrite A, T. reflexivity.
    - injection E1 as <-. cbn [snd]. pose proof (args_push_all true w ps d) as A. cbn [args] in A. now rewrite A. }
  apply (G _ _ _ El H).
Qed.

(** ** Histories *)
Lemma run_steps root l s0 s : run_decls root s0 l = Some s -> (exists t, s = s0 ++ t) /\
  forall i x, nth_error l i = Some x -> exists v, nth_error s (length s0 + i) = Some v /\ step root (firstn (length s0 + i) s) x = Some v.
Proof.
  revert s0. induction l as [|y l IH]; intros s0 E; cbn [run_decls] in E.
  { injection E as <-. split; [exists []; now rewrite app_nil_r|]. intros [|i] x; discriminate. }
  destruct (step root s0 y) as [v|] eqn:Ev; [|discriminate]. destruct (IH _ E) as [(t & Et) H]. split; [exists (v :: t); now rewrite Et, <- app_assoc|].
  intros [|i] x Ex.
  - cbn in Ex. injection Ex as <-. exists v. rewrite Nat.add_0_r, Et, <- app_assoc. split.
    + rewrite nth_error_app2 by lia. now rewrite Nat.sub_diag.
    + rewrite firstn_app, Nat.sub_diag, firstn_all. cbn [firstn]. now rewrite app_nil_r.
  - cbn [nth_error] in Ex. destruct (H i x Ex) as (u & H1 & H2). exists u. rewrite app_length in H1, H2. cbn [length] in H1, H2.
    replace (length s0 + 1 + i) with (length s0 + S i) in H1, H2 by lia. auto.
Qed.
Lemma nth_firstn {X} n (l : list X) i v : nth_error (firstn n l) i = Some v -> nth_error l i = Some v.
Proof. revert l i. induction n as [|n IH]; intros [|x l] [|i] H; cbn in *; auto; discriminate. Qed.
Lemma nth_in_firstn {X} n (l : list X) i v w : nth_error l i = Some v -> nth_error (firstn n l) i = Some w -> v = w.
Proof. intros H1 H2. apply nth_firstn in H2. congruence. Qed.

Lemma use_deps_known store l x x' : use_deps store l x = Some x' -> forall j, In j l -> nth_error store j <> None \/ In j (fst x).
Proof.
  revert x. induction l as [|n l IH]; intros [seen d] E j; cbn [use_deps] in E; [intros []|].
  destruct (use_dep store n (seen, d)) as [[seen1 d1]|] eqn:E1; [|discriminate]. cbn [use_dep] in E1. cbn [fst] in *.
  assert (Y : (nth_error store n <> None \/ In n seen) /\ forall j, In j seen1 -> nth_error store j <> None \/ In j seen).
  { destruct (existsb (Nat.eqb n) seen) eqn:Ex.
    { injection E1 as <- <-. split; [|auto]. right. apply existsb_exists in Ex as (y & Hy & X). apply Nat.eqb_eq in X as ->. exact Hy. }
    destruct (nth_error store n) as [[| | |f s0]|] eqn:En; try discriminate E1. injection E1 as <- <-.
    split; [left; congruence|]. intros i [<-|Hi]; [left; congruence|auto]. }
  destruct Y as (Y1 & Y2). intros [<-|Hj]; [exact Y1|]. destruct (IH _ E j Hj) as [H|H]; [auto|apply Y2, H].
Qed.
Lemma process_deps_known store o d d' j : process_deps store o d = Some d' -> given o j -> nth_error store j <> None.
Proof.
  intros E (l & -> & Hj). cbn [process_deps] in E. destruct (use_deps store l ([], d)) as [x|] eqn:El; [|discriminate].
  destruct (use_deps_known _ _ _ _ El j Hj) as [H|[]]. exact H.
Qed.
Lemma link_items_known store w l x x' : link_items store w l x = Some x' -> forall j, In (LThing j) l ->
  nth_error store j <> None /\ (forall n, nth_error store j = Some (VBoth n) -> nth_error store n <> None) \/ In j (fst x).
Proof.
  revert x. induction l as [|it l IH]; intros [seen d] E j; cbn [link_items] in E; [intros []|].
  destruct (link_item store w it (seen, d)) as [[seen1 d1]|] eqn:E1; [|discriminate]. cbn [fst] in *.
  set (K := fun j => nth_error store j <> None /\ (forall n, nth_error store j = Some (VBoth n) -> nth_error store n <> None)).
  assert (Y : (forall n, it = LThing n -> K n \/ In n seen) /\ forall j, In j seen1 -> K j \/ In j seen).
  { destruct it as [n|p]; cbn [link_item] in E1; [|injection E1 as <- <-; split; [intros n [=]|auto]].
    destruct (existsb (Nat.eqb n) seen) eqn:Ex.
    { injection E1 as <- <-. split; [|auto]. intros i [= <-]. right. apply existsb_exists in Ex as (y & Hy & X). apply Nat.eqb_eq in X as ->. exact Hy. }
    assert (Z : K n /\ seen1 = n :: seen).
    { unfold K. destruct (nth_error store n) as [[m|j'|ps|f s]|] eqn:En; try discriminate E1.
      - destruct (link_target w m d); [|discriminate]. injection E1 as <- <-. repeat split; congruence.
      - destruct (nth_error store j') as [[m| | |]|] eqn:Ej; try discriminate E1. destruct (link_target w m d); [|discriminate]. injection E1 as <- <-.
        repeat split; congruence.
      - injection E1 as <- <-. repeat split; congruence. }
    destruct Z as [Z ->]. split; [intros i [= <-]; auto|]. intros i [<-|Hi]; auto. }
  destruct Y as (Y1 & Y2). intros [->|Hj]; [now apply Y1|]. destruct (IH _ E j Hj) as [H|H]; [auto|apply Y2, H].
Qed.
Lemma process_links_known store w o d d' j : process_links store w o d = Some d' -> given o (LThing j) ->
  nth_error store j <> None /\ (forall n, nth_error store j = Some (VBoth n) -> nth_error store n <> None).
Proof.
  intros E (l & -> & Hj). cbn [process_links] in E. destruct (link_items store w l ([], d)) as [x|] eqn:El; [|discriminate].
  destruct (link_items_known _ _ _ _ _ El j Hj) as [H|[]]. exact H.
Qed.
Lemma stands_firstn n store j m : nth_error (firstn n store) j <> None ->
  (forall k, nth_error (firstn n store) j = Some (VBoth k) -> nth_error (firstn n store) k <> None) -> stands store j m -> stands (firstn n store) j m.
Proof.
  intros K1 K2 [H|(k & H1 & H2)].
  - left. destruct (nth_error (firstn n store) j) as [v|] eqn:E; [|congruence]. now rewrite (nth_in_firstn _ _ _ _ _ H E).
  - destruct (nth_error (firstn n store) j) as [v|] eqn:E; [|congruence]. pose proof (nth_in_firstn _ _ _ _ _ H1 E) as <-. right. exists k. split; [exact E|].
    specialize (K2 k eq_refl). destruct (nth_error (firstn n store) k) as [v'|] eqn:E'; [|congruence]. now rewrite (nth_in_firstn _ _ _ _ _ H2 E').
Qed.

(** ** Targets and dependencies *)
Lemma create_parts root store t m : create_target root store t = Some m -> exists d1 d2 d3,
  process_links store false (t_with t) nothing = Some d1 /\ process_links store true (t_whole t) d1 = Some d2 /\ process_deps store (t_deps t) d2 = Some d3 /\
  d_compile (m_internal m) = d_compile d3 /\ d_link (m_internal m) = d_link d3 ++ t_link_args t /\
  (t_type t = StaticLib -> d_link (m_passed m) = d_link d3).
Proof.
  unfold create_target. intros E.
  destruct (process_links store false (t_with t) nothing) as [d1|] eqn:E1; [|discriminate]. cbn in E.
  destruct (process_links store true (t_whole t) d1) as [d2|] eqn:E2; [|discriminate]. cbn in E.
  destruct (process_deps store (t_deps t) d2) as [d3|] eqn:E3; [|discriminate]. cbn in E.
  exists d1, d2, d3. split; [reflexivity|]. split; [exact E2|]. split; [exact E3|].
  destruct (push_sources root _ _) as [s|]; [|discriminate]. destruct (if t_implicit t then _ else _) as [dirs|]; [|discriminate].
  match type of E with (if ?b then _ else _) = _ => destruct b; [discriminate|] end.
  destruct (determine_linker _ _ _ _) as [[l|]|]; try discriminate. injection E as <-. cbn. repeat split. intros ->. reflexivity.
Qed.
Lemma declare_parts store a d : declare store a = Some d -> exists d1 d2 d3,
  process_links store false (a_with a) (Pass None [] [] [] (a_link a) (a_compile a) [] (a_sources a) (a_objects a) [] []) = Some d1 /\
  process_links store true (a_whole a) d1 = Some d2 /\ (forall c, args c d3 = args c d2) /\ process_deps store (a_deps a) d3 = Some d.
Proof.
  unfold declare. intros E. destruct (process_links store false _ _) as [d1|] eqn:E1; [|discriminate].
  destruct (process_links store true (a_whole a) d1) as [d2|] eqn:E2; [|discriminate].
  eexists. eexists. eexists. split; [reflexivity|]. split; [exact E2|]. split; [|exact E]. now intros [].
Qed.
