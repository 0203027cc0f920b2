(** Lemmas about source sets. *)
From Coq Require Import ZArith Lia.
From Verif Require Import Base M_SourceSet S_SourceSet.

Lemma item_eqb_spec a b : item_eqb a b = true <-> a = b.
Proof.
  destruct a, b; cbn; try (split; discriminate); try (rewrite Nat.eqb_eq; split; congruence).
  all: destruct (beqb_spec s s0); split; congruence.
Qed.

Lemma dedup_in l : forall acc x, In x (dedup acc l) <-> In x acc \/ In x l.
Proof.
  induction l as [|y l IH]; intros acc x; cbn [dedup]; [cbn; tauto|].
  rewrite IH. destruct (existsb (item_eqb y) acc) eqn:E.
  - apply existsb_exists in E as (z & Hz & Ez). apply item_eqb_spec in Ez as <-. cbn. split; [tauto|]. intros [H|[<-|H]]; tauto.
  - rewrite in_app_iff. cbn. tauto.
Qed.


Lemma nodup_snoc {A} (l : list A) x : NoDup l -> ~ In x l -> NoDup (l ++ [x]).
Proof.
  induction l as [|y l IH]; intros N H; cbn.
  - constructor; [easy|constructor].
  - inversion N as [|? ? H1 H2]; subst. constructor.
    + rewrite in_app_iff. cbn. intros [K|[K|[]]]; [tauto|]. subst. apply H. now left.
    + apply IH; [assumption|]. intros K. apply H. now right.
Qed.

Lemma dedup_nodup l : forall acc, NoDup acc -> NoDup (dedup acc l).
Proof.
  induction l as [|y l IH]; intros acc N; cbn [dedup]; [assumption|].
  apply IH. destruct (existsb (item_eqb y) acc) eqn:E; [assumption|].
  apply nodup_snoc; [assumption|]. intros K.
  assert (existsb (item_eqb y) acc = true) by (apply existsb_exists; exists y; split; [assumption|now apply item_eqb_spec]).
  congruence.
Qed.

Lemma index_some c k v : index c k = Some v <-> has_value c k v.
Proof.
  split.
  - induction c as [|[k' v'] c IH]; cbn; [discriminate|]. destruct (beqb_spec k' k) as [->|N].
    + intros [= ->]. exists [], c. split; [reflexivity|easy].
    + intros H. destruct (IH H) as (b & a & -> & Hb). exists ((k', v') :: b), a. split; [reflexivity|].
      cbn. intros [|]; congruence.
  - intros (b & a & -> & Hb). induction b as [|[k' v'] b IH]; cbn.
    + destruct (beqb_spec k k); congruence.
    + cbn in Hb. destruct (beqb_spec k' k) as [->|N]; [exfalso; apply Hb; now left|]. apply IH. tauto.
Qed.
Lemma index_none c k : index c k = None <-> ~ in_conf c k.
Proof.
  unfold in_conf. induction c as [|[k' v'] c IH]; cbn; [tauto|]. destruct (beqb_spec k' k) as [->|N].
  - split; [discriminate|]. intros H. exfalso. tauto.
  - rewrite IH. tauto.
Qed.
Lemma index_in c k v : index c k = Some v -> In (k, v) c.
Proof. rewrite index_some. intros (b & a & -> & _). apply in_elt. Qed.

Lemma when_deps_ok l : forall c, exists o, when_deps l c = {| res := res c ++ o; matched := matched c |} /\
  forall x, In x o <-> exists d, x = Dep d /\ In (Found d) l.
Proof.
  induction l as [|[k|d] l IH]; intros c; cbn [when_deps].
  - exists []. destruct c. cbn. rewrite app_nil_r. split; [reflexivity|]. intros x. split; [easy|]. intros (d & _ & []).
  - destruct (IH c) as (o & -> & I). exists o. split; [reflexivity|]. intros x. rewrite I. cbn.
    split; intros (d & E & H); exists d; (split; [assumption|]); [tauto|destruct H as [[=]|H]; assumption].
  - destruct (IH (push (Dep d) c)) as (o & -> & I). exists (Dep d :: o). cbn. rewrite <- app_assoc. split; [reflexivity|].
    intros x. rewrite I. split.
    + intros [<-|(e & E & H)]; [exists d; tauto|exists e; tauto].
    + intros (e & -> & [H|H]); [left; congruence|right; now exists e].
Qed.

Section Collect.
Variable found : nat -> bool.
Variable strict : bool.
Variable cf : conf.
Hypothesis cf_ok : forall k v, In (k, v) cf -> v <> COther.

Notation fnd := (fun d => found d = true).
Notation val := (has_value cf).
Notation hold := (holds fnd val).

Lemma rule_match_ok l : forall c, (strict = true -> forall k, In (Key k) l -> in_conf cf k) ->
  exists b, rule_match found strict (Some cf) l c = Cont {| res := res c; matched := matched c && b |}
            /\ (b = true <-> forall x, In x l -> hold x).
Proof.
  induction l as [|x l IH]; intros c HK; cbn [rule_match].
  - exists true. split; [destruct c; cbn; now rewrite andb_true_r|]. cbn. tauto.
  - assert (HK' : strict = true -> forall k, In (Key k) l -> in_conf cf k) by (intros E k H; apply HK; [assumption|now right]).
    assert (Yes : hold x -> exists b, rule_match found strict (Some cf) l c = Cont {| res := res c; matched := matched c && b |}
              /\ (b = true <-> forall y, In y (x :: l) -> hold y)).
    { intros Hx. destruct (IH c HK') as (b & E & Hb). exists b. split; [assumption|]. rewrite Hb. cbn. split.
      - intros H y [<-|K]; auto.
      - intros H y K. apply H. now right. }
    assert (No : ~ hold x -> exists b, Cont (set_match false c) = Cont {| res := res c; matched := matched c && b |}
              /\ (b = true <-> forall y, In y (x :: l) -> hold y)).
    { intros Hx. exists false. split; [unfold set_match; now rewrite andb_false_r|]. split; [discriminate|].
      intros H. exfalso. apply Hx, H. now left. }
    destruct x as [k|d].
    + destruct (index cf k) as [v|] eqn:E.
      * pose proof (index_in _ _ _ E) as I. apply cf_ok in I. pose proof (proj1 (index_some _ _ _) E) as V.
        assert (T : hold (Key k) <-> truthy v).
        { cbn. split.
          - intros (v' & V' & T). apply index_some in V'. congruence.
          - intros T. now exists v. }
        destruct v as [b|s|n|]; [..|congruence]; cbn [truthy] in T.
        -- destruct b; [apply Yes; tauto|apply No]. rewrite T. discriminate.
        -- destruct s as [|a s]; cbn; [apply No|apply Yes]; rewrite T; [tauto|discriminate].
        -- destruct (n >? 0)%Z eqn:G; [apply Yes|apply No]; rewrite T; lia.
      * apply index_none in E. destruct strict eqn:S.
        -- exfalso. apply E, HK; [reflexivity|now left].
        -- apply No. cbn. intros (v & V & _). apply index_some in V. apply index_none in E. congruence.
    + destruct (found d) eqn:E; [apply Yes|apply No]; cbn; congruence.
Qed.

Lemma rule_match_fail l : forall c, strict = true ->
  (forall x, rule_match found strict (Some cf) l c <> Cont x) <->
  exists pre k post, l = pre ++ Key k :: post /\ (forall x, In x pre -> hold x) /\ ~ in_conf cf k.
Proof.
  induction l as [|x l IH]; intros c St; cbn [rule_match].
  - split; [intros H; exfalso; now apply (H c)|]. intros (pre & k & post & E & _). now destruct pre.
  - assert (Yes : hold x -> (exists pre k post, l = pre ++ Key k :: post /\ (forall x, In x pre -> hold x) /\ ~ in_conf cf k) <->
              exists pre k post, x :: l = pre ++ Key k :: post /\ (forall x, In x pre -> hold x) /\ ~ in_conf cf k).
    { intros Hx. split; intros (pre & k & post & E & Hp & Hk).
      - exists (x :: pre), k, post. subst l. split; [reflexivity|]. split; [|assumption]. intros y [<-|K]; auto.
      - destruct pre as [|y pre]; cbn in E; injection E as Ex El.
        + exfalso. subst x. cbn in Hx. destruct Hx as (v & V & _). apply index_some in V. apply index_none in Hk. congruence.
        + exists pre, k, post. split; [assumption|]. split; [|assumption]. intros z K. apply Hp. now right. }
    assert (No : ~ hold x -> (x = x -> match x with Key k => in_conf cf k | _ => True end) ->
              (forall y, Cont (set_match false c) <> Cont y) <->
              exists pre k post, x :: l = pre ++ Key k :: post /\ (forall x, In x pre -> hold x) /\ ~ in_conf cf k).
    { intros Hx Hin. split.
      - intros H. exfalso. now apply (H (set_match false c)).
      - intros (pre & k & post & E & Hp & Hk). exfalso. destruct pre as [|y pre]; cbn in E; injection E as Ex El.
        + subst x. now apply Hk, Hin.
        + subst y. apply Hx, Hp. now left. }
    destruct x as [k|d].
    + destruct (index cf k) as [v|] eqn:E.
      * pose proof (index_in _ _ _ E) as I. apply cf_ok in I. pose proof (proj1 (index_some _ _ _) E) as V.
        assert (IC : in_conf cf k).
        { destruct (in_dec (list_eq_dec Ascii.ascii_dec) k (map fst cf)) as [H|H]; [assumption|]. apply index_none in H. congruence. }
        assert (T : hold (Key k) <-> truthy v).
        { cbn. split.
          - intros (v' & V' & T). apply index_some in V'. congruence.
          - intros T. now exists v. }
        destruct v as [b|s|n|]; [..|congruence]; cbn [truthy] in T.
        -- destruct b; [rewrite IH by assumption; apply Yes; tauto|apply No; [|auto]]. rewrite T. discriminate.
        -- destruct s as [|a s]; cbn; [apply No; [|auto]|rewrite IH by assumption; apply Yes]; rewrite T; [tauto|discriminate].
        -- destruct (n >? 0)%Z eqn:G; [rewrite IH by assumption; apply Yes|apply No; [|auto]]; rewrite T; lia.
      * apply index_none in E. rewrite St. split; [|intros _ x; discriminate]. intros _. exists [], k, l. repeat split; [easy|assumption].
    + destruct (found d) eqn:E; [rewrite IH by assumption; apply Yes|apply No; [|auto]]; cbn; congruence.
Qed.

Definition fits (m : mode) (x : item) : Prop := match m with Sources => is_source_item x | Dependencies => is_dependency x end.
Variable h : heap.
Variable m : mode.
Notation pick := (picked fnd val (has_rule h)).

(** what collecting from a set has to do *)
Definition good (nested : nat -> ctx -> outcome) (t : nat) : Prop :=
  forall c, exists c' l, nested t c = Cont c' /\ res c' = res c ++ l /\ forall x, In x l <-> pick t x /\ fits m x.

Lemma collect_items_ok nested l : (forall t, In (Set_ t) l -> good nested t) -> forall c,
  exists c' o, collect_items m nested l c = Cont c' /\ res c' = res c ++ o
    /\ ((forall t, ~ In (Set_ t) l) -> matched c' = matched c)
    /\ forall x, In x o <-> fits m x /\ ((In x l /\ ~ S_SourceSet.nested x) \/ exists t, In (Set_ t) l /\ pick t x).
Proof.
  induction l as [|y l IH]; intros G c; cbn [collect_items].
  - exists c, []. rewrite app_nil_r. split; [reflexivity|]. split; [reflexivity|]. split; [reflexivity|].
    intros x. cbn. split; [easy|]. intros (_ & [[[] _]|(t & [] & _)]).
  - assert (G' : forall t, In (Set_ t) l -> good nested t) by (intros t H; apply G; now right).
    assert (Skip : ~ fits m y -> ~ S_SourceSet.nested y -> exists c' o, collect_items m nested l c = Cont c' /\ res c' = res c ++ o
        /\ ((forall t, ~ In (Set_ t) (y :: l)) -> matched c' = matched c)
        /\ forall x, In x o <-> fits m x /\ ((In x (y :: l) /\ ~ S_SourceSet.nested x) \/ exists t, In (Set_ t) (y :: l) /\ pick t x)).
    { intros F NN. destruct (IH G' c) as (c' & o & E & R & M & I). exists c', o. split; [assumption|]. split; [assumption|]. split.
      - intros H. apply M. intros t K. apply (H t). now right.
      - intros x. rewrite I. cbn. split; intros [Fx [[H N]|(t & H & P)]]; (split; [assumption|]).
        + left. tauto.
        + right. exists t. tauto.
        + destruct H as [->|H]; [contradiction|tauto].
        + destruct H as [->|H]; [exfalso; apply NN; now exists t|]. right. exists t. tauto. }
    assert (Take : fits m y -> ~ S_SourceSet.nested y -> exists c' o, collect_items m nested l (push y c) = Cont c' /\ res c' = res c ++ o
        /\ ((forall t, ~ In (Set_ t) (y :: l)) -> matched c' = matched c)
        /\ forall x, In x o <-> fits m x /\ ((In x (y :: l) /\ ~ S_SourceSet.nested x) \/ exists t, In (Set_ t) (y :: l) /\ pick t x)).
    { intros F NN. destruct (IH G' (push y c)) as (c' & o & E & R & M & I). exists c', (y :: o). split; [assumption|]. split.
      { rewrite R. cbn. now rewrite <- app_assoc. } split.
      - intros H. rewrite M; [reflexivity|]. intros t K. apply (H t). now right.
      - intros x. cbn [In]. rewrite I. split.
        + intros [<-|[Fx [[H N]|(t & H & P)]]]; (split; [assumption|]); [left; tauto|left; tauto|right; exists t; tauto].
        + intros [Fx [[[H|H] N]|(t & [H|H] & P)]]; [tauto|tauto| |].
          * subst y. exfalso. apply NN. now exists t.
          * right. split; [assumption|]. right. now exists t. }
    destruct y as [s|s|i|i|i|i].
    1-5: destruct m;
      ((apply Take; cbn; [first [exact I|now eexists]|intros (j & [=])]) ||
       (apply Skip; cbn; [first [now intros [d [=]]|tauto]|intros (j & [=])])).
    destruct (G i (or_introl eq_refl) c) as (c1 & l1 & -> & R1 & I1).
    destruct (IH G' c1) as (c' & o & E & R & M & I). exists c', (l1 ++ o). split; [assumption|]. split.
    { now rewrite R, R1, <- app_assoc. } split.
    { intros H. exfalso. apply (H i). now left. }
    intros x. rewrite in_app_iff, I1, I. cbn [In]. split.
    + intros [[P F]|[F [[H N]|(t & H & P)]]].
      * split; [assumption|]. right. exists i. tauto.
      * split; [assumption|]. left. tauto.
      * split; [assumption|]. right. exists t. tauto.
    + intros [F [[[H|H] N]|(t & [H|H] & P)]].
      * exfalso. apply N. subst x. now exists i.
      * right. tauto.
      * injection H as ->. now left.
      * right. split; [assumption|]. right. now exists t.
Qed.


(** rules as add() and add_all() make them *)
Definition rule_ok (r : rule) : Prop :=
  (forall x, among x (if_false r) -> is_source_item x) /\ ((exists t, among (Set_ t) (if_true r)) -> if_false r = None).

Definition contrib (r : rule) (x : item) : Prop :=
  (applies fnd val r /\ among x (if_true r) /\ ~ S_SourceSet.nested x)
  \/ (applies fnd val r /\ if_true r <> None /\ exists d, x = Dep d /\ In (Found d) (conditions r))
  \/ (~ applies fnd val r /\ among x (if_false r))
  \/ (applies fnd val r /\ exists t, among (Set_ t) (if_true r) /\ pick t x).

Lemma source_not_nested x : is_source_item x -> ~ S_SourceSet.nested x.
Proof. intros H (i & ->). exact H. Qed.

Lemma collect_rule_ok nested r : rule_ok r -> (forall t, among (Set_ t) (if_true r) -> good nested t) ->
  (strict = true -> forall k, In (Key k) (conditions r) -> in_conf cf k) -> forall c,
  exists c' o, collect_rule found m strict (Some cf) nested r c = Cont c' /\ res c' = res c ++ o
    /\ forall x, In x o <-> contrib r x /\ fits m x.
Proof.
  intros [RF RN] G HK c. unfold collect_rule.
  assert (exists b, match when r with Some w => rule_match found strict (Some cf) w (set_match true c) | None => Cont (set_match true c) end
            = Cont {| res := res c; matched := b |} /\ (b = true <-> applies fnd val r)) as (b & -> & Hb).
  { unfold applies, conditions in *. destruct (when r) as [w|].
    - destruct (rule_match_ok w (set_match true c) HK) as (b & -> & Hb). exists b. split; [reflexivity|assumption].
    - exists true. split; [reflexivity|]. split; [intros _ x []|reflexivity]. }
  cbn [matched].
  destruct b.
  - (* the rule applies *)
    pose proof (proj1 Hb eq_refl) as A.
    assert (exists c1 o1, match if_true r with
        | Some l => ignore (collect_items m nested l (match m with Sources => {| res := res c; matched := true |} | Dependencies =>
             match when r with Some w => when_deps w {| res := res c; matched := true |} | None => {| res := res c; matched := true |} end end))
        | None => Cont {| res := res c; matched := true |} end = Cont c1
        /\ res c1 = res c ++ o1 /\ (if_false r <> None -> matched c1 = true)
        /\ forall x, In x o1 <-> contrib r x /\ fits m x) as (c1 & o1 & -> & R1 & M1 & I1).
    { destruct (if_true r) as [l|] eqn:ET.
      - set (c0 := match m with Sources => _ | Dependencies => _ end).
        assert (exists o0, c0 = {| res := res c ++ o0; matched := true |} /\
          forall x, In x o0 <-> fits m x /\ exists d, x = Dep d /\ In (Found d) (conditions r)) as (o0 & E0 & I0).
        { subst c0. unfold fits, conditions. destruct m.
          - exists []. rewrite app_nil_r. split; [reflexivity|]. intros x. split; [easy|]. intros (F & d & -> & _). exact F.
          - destruct (when r) as [w|].
            + destruct (when_deps_ok w {| res := res c; matched := true |}) as (o & -> & I). exists o. split; [reflexivity|].
              intros x. rewrite I. split; [|tauto]. intros (d & -> & H). split; [now exists d|]. exists d. tauto.
            + exists []. rewrite app_nil_r. split; [reflexivity|]. intros x. split; [easy|]. intros (_ & d & _ & []). }
        rewrite E0.
        destruct (collect_items_ok nested l) with (c := {| res := res c ++ o0; matched := true |}) as (c' & o & -> & R & M & I).
        { intros t H. apply G. exists l. tauto. }
        exists c', (o0 ++ o). split; [reflexivity|]. cbn in R. rewrite <- app_assoc in R. split; [assumption|]. split.
        + intros NF. apply M. intros t H. apply NF, RN. exists t, l. tauto.
        + intros x. rewrite in_app_iff, I0, I. unfold contrib, among. rewrite ET. split.
          * intros [(F & d & -> & H)|[F [[H N]|(t & H & P)]]]; (split; [|assumption]).
            -- right; left. split; [assumption|]. split; [discriminate|]. now exists d.
            -- left. split; [assumption|]. split; [|assumption]. now exists l.
            -- right; right; right. split; [assumption|]. exists t. split; [|assumption]. now exists l.
          * intros [[(_ & (l' & [= <-] & H) & N)|[(_ & _ & d & -> & H)|[(NA & _)|(_ & t & (l' & [= <-] & H) & P)]]] F].
            -- right. split; [assumption|]. left. tauto.
            -- left. split; [assumption|]. now exists d.
            -- contradiction.
            -- right. split; [assumption|]. right. now exists t.
      - exists {| res := res c; matched := true |}, []. rewrite app_nil_r. split; [reflexivity|]. split; [reflexivity|]. split; [reflexivity|].
        intros x. split; [easy|]. unfold contrib, among. rewrite ET.
        intros [[(_ & (l' & [=] & _) & _)|[(_ & N & _)|[(NA & _)|(_ & t & (l' & [=] & _) & _)]]] _]; contradiction. }
    destruct (if_false r) as [l|] eqn:EF.
    + rewrite M1 by discriminate. cbn [negb]. exists c1, o1. tauto.
    + exists c1, o1. tauto.
  - (* the rule does not apply *)
    assert (NA : ~ applies fnd val r) by (intros H; apply Hb in H; discriminate).
    replace (match if_true r with Some l => Cont {| res := res c; matched := false |} | None => Cont {| res := res c; matched := false |} end)
      with (Cont {| res := res c; matched := false |}) by (now destruct (if_true r)).
    cbn [matched negb].
    destruct (if_false r) as [l|] eqn:EF.
    + destruct (collect_items_ok nested l) with (c := {| res := res c; matched := false |}) as (c' & o & -> & R & M & I).
      { intros t H. destruct (RF (Set_ t)). exists l. tauto. }
      exists c', o. split; [reflexivity|]. split; [assumption|]. intros x. rewrite I. unfold contrib, among. rewrite EF. split.
      * intros [F [[H N]|(t & H & _)]]; [|destruct (RF (Set_ t)); exists l; tauto].
        split; [|assumption]. right; right; left. split; [assumption|]. now exists l.
      * intros [[(A & _)|[(A & _)|[(_ & l' & [= <-] & H)|(A & _)]]] F]; try contradiction.
        split; [assumption|]. left. split; [assumption|]. apply source_not_nested, RF. now exists l.
    + exists {| res := res c; matched := false |}, []. rewrite app_nil_r. split; [reflexivity|]. split; [reflexivity|].
      intros x. split; [easy|]. unfold contrib, among. rewrite EF.
      intros [[(A & _)|[(A & _)|[(_ & l' & [=] & H)|(A & _)]]] F]; contradiction.
Qed.

Lemma collect_rules_ok nested l : (forall r, In r l -> rule_ok r /\ (forall t, among (Set_ t) (if_true r) -> good nested t) /\
  (strict = true -> forall k, In (Key k) (conditions r) -> in_conf cf k)) -> forall c,
  exists c' o, collect_rules found m strict (Some cf) nested l c = Cont c' /\ res c' = res c ++ o
    /\ forall x, In x o <-> (exists r, In r l /\ contrib r x) /\ fits m x.
Proof.
  induction l as [|r l IH]; intros G c; cbn [collect_rules].
  - exists c, []. rewrite app_nil_r. split; [reflexivity|]. split; [reflexivity|]. intros x. split; [easy|]. intros [(r & [] & _) _].
  - destruct (G r (or_introl eq_refl)) as (Ok & Gn & HK).
    destruct (collect_rule_ok nested r Ok Gn HK c) as (c1 & o1 & -> & R1 & I1).
    destruct (IH (fun r H => G r (or_intror H)) c1) as (c' & o & -> & R & I).
    exists c', (o1 ++ o). split; [reflexivity|]. split; [now rewrite R, R1, <- app_assoc|].
    intros x. rewrite in_app_iff, I1, I. split.
    + intros [(C & F)|[(r' & H & C) F]]; (split; [|assumption]); [exists r|exists r']; cbn; tauto.
    + intros [(r' & [<-|H] & C) F]; [left; tauto|right]. split; [|assumption]. now exists r'.
Qed.

(** ** Sets without cycles *)
Variable rank : nat -> nat.
Hypothesis h_ok : forall i r, has_rule h i r -> rule_ok r.
Hypothesis h_rank : forall i r t, has_rule h i r -> among (Set_ t) (if_true r) -> t < length h /\ rank t < rank i.

Lemma collect_set_ok fuel : forall i, rank i < fuel -> i < length h ->
  (forall u, part (has_rule h) i u -> strict = true -> forall r, has_rule h u r -> forall k, In (Key k) (conditions r) -> in_conf cf k) ->
  good (collect_set found h m strict (Some cf) fuel) i.
Proof.
  induction fuel as [|fuel IH]; intros i Hr Hi HK; [lia|]. intros c. cbn [collect_set].
  destruct (nth_error h i) as [ss|] eqn:E; [|apply nth_error_None in E; lia].
  assert (HR : forall r, In r (rules ss) <-> has_rule h i r).
  { intros r. split; [intros H; exists ss; tauto|]. intros (ss' & E' & H). congruence. }
  destruct (collect_rules_ok (collect_set found h m strict (Some cf) fuel) (rules ss)) with (c := c) as (c' & o & -> & R & I).
  { intros r Hin. apply HR in Hin. split; [now apply (h_ok i)|]. split.
    - intros t Ht. destruct (h_rank i r t Hin Ht) as [Lt Rt]. apply IH; [lia|assumption|].
      intros u Pu. apply HK. now apply part_set with r t.
    - intros St. exact (HK i (part_self _ i) St r Hin). }
  exists c', o. split; [reflexivity|]. split; [assumption|]. intros x. rewrite I. split; intros [H F]; (split; [|assumption]).
  - destruct H as (r & Hin & [C|[C|[C|C]]]); apply HR in Hin.
    + apply p_true with r; tauto.
    + destruct C as (A & N & d & -> & Hd). now apply p_when with r.
    + apply p_false with r; tauto.
    + destruct C as (A & t & Ht & P). now apply p_set with r t.
  - unfold contrib. inversion H as [s r y Hr' A Hy N|s r d Hr' A N Hd|s r y Hr' A Hy|s r t y Hr' A Ht P]; subst; exists r; (split; [now apply HR|]).
    + tauto.
    + right; left. split; [assumption|]. split; [assumption|]. now exists d.
    + tauto.
    + right; right; right. split; [assumption|]. now exists t.
Qed.
End Collect.

(** ** Histories *)
Lemma nth_update h i f j : nth_error (update h i f) j = if i =? j then option_map f (nth_error h j) else nth_error h j.
Proof.
  unfold update. destruct (nth_error h i) as [s|] eqn:E.
  - destruct (Nat.eqb_spec i j) as [<-|N].
    + rewrite E. apply nth_error_upd_same. apply nth_error_Some. congruence.
    + now apply nth_error_upd_other.
  - destruct (Nat.eqb_spec i j) as [<-|N]; [now rewrite E|reflexivity].
Qed.
Lemma update_length h i f : length (update h i f) = length h.
Proof. unfold update. destruct (nth_error h i); [apply upd_length|reflexivity]. Qed.

(** the same rules, and at least as much frozen *)
Definition ext (h h' : heap) : Prop := length h' = length h /\
  forall i ss, nth_error h i = Some ss -> exists ss', nth_error h' i = Some ss' /\ rules ss' = rules ss /\ (frozen ss = true -> frozen ss' = true).
Definition is_frozen (h : heap) (i : nat) : Prop := exists ss, nth_error h i = Some ss /\ frozen ss = true.

Lemma ext_refl h : ext h h.
Proof. split; [reflexivity|]. intros i ss E. exists ss. tauto. Qed.
Lemma ext_trans a b c : ext a b -> ext b c -> ext a c.
Proof.
  intros [L1 H1] [L2 H2]. split; [congruence|]. intros i ss E.
  destruct (H1 i ss E) as (s1 & E1 & R1 & F1). destruct (H2 i s1 E1) as (s2 & E2 & R2 & F2).
  exists s2. split; [assumption|]. split; [congruence|tauto].
Qed.
Lemma ext_freeze h i : ext h (update h i freeze).
Proof.
  split; [apply update_length|]. intros j ss E. rewrite nth_update. destruct (i =? j).
  - rewrite E. exists (freeze ss). cbn. tauto.
  - exists ss. tauto.
Qed.
Lemma ext_freeze_nested l : forall h, ext h (freeze_nested l h).
Proof.
  induction l as [|[s|s|i|i|i|i] l IH]; intros h; cbn [freeze_nested]; try apply IH; [apply ext_refl|].
  apply ext_trans with (update h i freeze); [apply ext_freeze|apply IH].
Qed.
Lemma ext_rules h h' i r : ext h h' -> has_rule h' i r <-> has_rule h i r.
Proof.
  intros [L H]. split; intros (ss & E & I).
  - destruct (nth_error h i) as [s|] eqn:E0.
    + destruct (H i s E0) as (s' & E' & R & _). exists s. split; [assumption|]. rewrite <- R. congruence.
    + apply nth_error_None in E0. assert (i < length h') by (apply nth_error_Some; congruence). lia.
  - destruct (H i ss E) as (s' & E' & R & _). exists s'. split; [assumption|]. now rewrite R.
Qed.
Lemma ext_frozen h h' i : ext h h' -> is_frozen h i -> is_frozen h' i.
Proof. intros [L H] (ss & E & F). destruct (H i ss E) as (s' & E' & _ & F'). exists s'. tauto. Qed.
Lemma freeze_nested_freezes l : forall h i, In (Set_ i) l -> i < length h -> is_frozen (freeze_nested l h) i.
Proof.
  induction l as [|x l IH]; intros h i I L; [destruct I|destruct I as [->|H]]; cbn [freeze_nested].
  - apply ext_frozen with (update h i freeze); [apply ext_freeze_nested|].
    destruct (nth_error h i) as [ss|] eqn:E; [|apply nth_error_None in E; lia].
    exists (freeze ss). rewrite nth_update, Nat.eqb_refl, E. split; reflexivity.
  - destruct x; try (now apply IH). apply IH; [assumption|]. now rewrite update_length.
Qed.

(** the effect of adding a rule *)
Lemma add_rule_rules h i r j x : i < length h -> has_rule (update h i (add_rule r)) j x <-> has_rule h j x \/ (j = i /\ x = r).
Proof.
  intros L. unfold has_rule. rewrite nth_update. destruct (Nat.eqb_spec i j) as [<-|N].
  - destruct (nth_error h i) as [ss|] eqn:E; [|apply nth_error_None in E; lia]. cbn. split.
    + intros (s & [= <-] & H). cbn in H. apply in_app_iff in H as [H|[H|[]]]; [left; now exists ss|right; split; congruence].
    + intros [(s & [= <-] & H)|[_ ->]]; eexists; (split; [reflexivity|]); cbn; apply in_app_iff; cbn; tauto.
  - split; [tauto|]. intros [H|[-> _]]; [assumption|contradiction].
Qed.
Lemma add_rule_frozen h i r j : is_frozen (update h i (add_rule r)) j <-> is_frozen h j.
Proof.
  unfold is_frozen. rewrite nth_update. destruct (Nat.eqb_spec i j) as [<-|N]; [|tauto].
  destruct (nth_error h i) as [ss|]; cbn; [|tauto]. split; intros (s & [= <-] & F); eexists; (split; [reflexivity|]); exact F.
Qed.

Record inv (h : heap) (n : nat) : Prop := {
  inv_ok : forall i r, has_rule h i r -> rule_ok r;
  inv_target : forall i r t, has_rule h i r -> among (Set_ t) (if_true r) -> is_frozen h t;
  inv_rank : exists rank : nat -> nat, (forall i, rank i <= n) /\
    forall i r t, has_rule h i r -> among (Set_ t) (if_true r) -> rank t < rank i
}.

Lemma frozen_lt h i : is_frozen h i -> i < length h.
Proof. intros (ss & E & _). apply nth_error_Some. congruence. Qed.

Lemma inv_ext h h' n : ext h h' -> inv h n -> inv h' n.
Proof.
  intros X [O T (rank & B & R)]. split.
  - intros i r H. apply (ext_rules _ _ _ _ X) in H. eauto.
  - intros i r t H A. apply (ext_rules _ _ _ _ X) in H. apply ext_frozen with h; eauto.
  - exists rank. split; [assumption|]. intros i r t H. apply (ext_rules _ _ _ _ X) in H. eauto.
Qed.
Lemma inv_mono h n n' : n <= n' -> inv h n -> inv h n'.
Proof. intros L [O T (rank & B & R)]. split; [assumption..|]. exists rank. split; [|assumption]. intros i. specialize (B i). lia. Qed.

Lemma inv_add h n i r : inv h n -> i < length h -> ~ is_frozen h i -> rule_ok r ->
  (forall t, among (Set_ t) (if_true r) -> t <> i /\ is_frozen h t) -> inv (update h i (add_rule r)) (S n).
Proof.
  intros [O T (rank & B & R)] L NF Ok New. split.
  - intros j x H. apply add_rule_rules in H as [H|[_ ->]]; eauto.
  - intros j x t H A. apply add_rule_frozen. apply add_rule_rules in H as [H|[_ ->]]; [eauto| |assumption]. now apply New.
  - exists (fun j => if j =? i then S n else rank j). split.
    + intros j. destruct (j =? i); [lia|]. specialize (B j). lia.
    + intros j x t H A. apply add_rule_rules in H as [H|[-> ->]]; [| |assumption].
      * assert (t <> i) by (intros ->; apply NF; eauto).
        destruct (Nat.eqb_spec t i); [contradiction|]. destruct (Nat.eqb_spec j i); [specialize (B t); lia|]. eauto.
      * destruct (New t A) as [N _]. destruct (Nat.eqb_spec t i); [contradiction|]. rewrite Nat.eqb_refl. specialize (B t). lia.
Qed.

Lemma all_of_spec f l x : all_of f l = true -> among x l -> f x = true.
Proof. intros A (l' & -> & I). cbn in A. rewrite forallb_forall in A. auto. Qed.

Lemma source_or_dep x : is_source x || is_dep x = true -> ~ nested x.
Proof. intros H (i & ->). discriminate. Qed.
Lemma is_source_spec x : is_source x = true <-> is_source_item x.
Proof. destruct x; cbn; split; (reflexivity || tauto || discriminate). Qed.

(** what source_set_add_rule does: the rule, and the sets to be frozen *)
Lemma source_set_add_rule_ok h i pos r h' : source_set_add_rule h i pos r = Good h' ->
  exists r' h1, h' = update h1 i (add_rule r') /\ ext h h1 /\ (forall t, among (Set_ t) (if_true r') -> t < length h -> is_frozen h1 t)
    /\ ((r' = r /\ pos = []) \/ (r' = {| when := None; if_true := Some pos; if_false := None |} /\ if_true r = None))
    /\ forall j, is_frozen h1 j -> is_frozen h j \/ among (Set_ j) (if_true r').
Proof.
  unfold source_set_add_rule. destruct (_ && _) eqn:G; [discriminate|]. intros [= <-].
  set (r' := if 0 <? length pos then _ else _).
  exists r', (match if_true r' with Some l => freeze_nested l h | None => h end). split; [reflexivity|]. split; [|split; [|split]].
  - destruct (if_true r'); [apply ext_freeze_nested|apply ext_refl].
  - intros t (l & -> & H) L. now apply freeze_nested_freezes.
  - subst r'. destruct pos; [left|right]; cbn; [tauto|]. split; [reflexivity|]. cbn in G.
    destruct (if_true r); [|reflexivity]. now rewrite orb_true_r in G.
  - intros j. destruct (if_true r') as [l|] eqn:E; [|tauto]. intros F.
    assert (forall l h, is_frozen (freeze_nested l h) j -> is_frozen h j \/ In (Set_ j) l) as K.
    { clear. induction l as [|x l IH]; intros h; cbn [freeze_nested]; [tauto|]. intros H.
      assert (is_frozen (match x with Set_ i => update h i freeze | _ => h end) j \/ In (Set_ j) l) as [H1|H1] by (destruct x; now apply IH).
      - destruct x as [?|?|?|?|?|i]; try tauto. destruct H1 as (ss & E & F). rewrite nth_update in E. destruct (Nat.eqb_spec i j) as [->|N].
        + right. now left.
        + left. now exists ss.
      - right. now right. }
    destruct (K _ _ F) as [|I]; [tauto|]. right. now exists l.
Qed.

Lemma add_rule_sound h n i pos r h' : inv h n -> source_set_add_rule h i pos r = Good h' -> i < length h -> ~ is_frozen h i ->
  rule_ok r -> (forall x, In x pos \/ among x (if_true r) -> forall t, x = Set_ t -> t <> i /\ t < length h) -> inv h' (S n).
Proof.
  intros I E L NF Ok New. destruct (source_set_add_rule_ok _ _ _ _ _ E) as (r' & h1 & -> & X & Fr & Hr & Back).
  assert (New' : forall t, among (Set_ t) (if_true r') -> t <> i /\ t < length h).
  { intros t A. destruct Hr as [[-> _]|[-> _]].
    - apply (New (Set_ t)); [now right|reflexivity].
    - destruct A as (l & [= <-] & A). apply (New (Set_ t)); [now left|reflexivity]. }
  apply inv_add.
  - now apply inv_ext with h.
  - destruct X as [-> _]. assumption.
  - intros F. destruct (Back i F) as [|A]; [contradiction|]. now apply (New' i).
  - destruct Hr as [[-> _]|[-> _]]; [assumption|]. split; cbn; [intros x (l & [=] & _)|reflexivity].
  - intros t A. destruct (New' t A). split; [assumption|]. now apply Fr.
Qed.

Lemma step_inv h n c : inv h n -> no_self_add c -> inv (step h c) (S n).
Proof.
  intros I NS. destruct c as [|i pos r|i pos w t|i c s]; cbn [step].
  - (* Create *)
    assert (HR : forall j r, has_rule (h ++ [{| rules := []; frozen := false |}]) j r <-> has_rule h j r).
    { intros j r. split; intros (ss & E & H).
      - destruct (Nat.lt_ge_cases j (length h)) as [L|L].
        + rewrite nth_error_app1 in E by assumption. now exists ss.
        + rewrite nth_error_app2 in E by assumption. destruct (j - length h) as [|k]; cbn in E; [injection E as <-; destruct H|destruct k; discriminate].
      - exists ss. split; [|assumption]. rewrite nth_error_app1; [assumption|]. apply nth_error_Some. congruence. }
    apply inv_mono with n; [lia|]. destruct I as [O T (rank & B & R)]. split.
    + intros j r H. apply HR in H. eauto.
    + intros j r t H A. apply HR in H. destruct (T j r t H A) as (ss & E & F). exists ss. split; [|assumption].
      rewrite nth_error_app1; [assumption|]. apply nth_error_Some. congruence.
    + exists rank. split; [assumption|]. intros j r t H. apply HR in H. eauto.
  - (* Add *)
    unfold add. destruct (_ && _ && _) eqn:C; [|now apply inv_mono with n; [lia|]].
    apply andb_prop in C as [C C3]. apply andb_prop in C as [C1 C2].
    destruct (nth_error h i) as [ss|] eqn:E; [|now apply inv_mono with n; [lia|]].
    destruct (frozen ss) eqn:F; [now apply inv_mono with n; [lia|]|].
    destruct (source_set_add_rule h i pos r) as [h'| | |] eqn:A; try (now apply inv_mono with n; [lia|]).
    apply add_rule_sound with h i pos r; [assumption|assumption|apply nth_error_Some; congruence|intros (s & E' & F'); congruence| |].
    + split.
      * intros x H. apply is_source_spec. exact (all_of_spec _ _ _ C3 H).
      * intros (t & H). exfalso. apply (all_of_spec _ _ _ C2) in H. discriminate.
    + intros x [H|H] t ->; exfalso.
      * rewrite forallb_forall in C1. apply C1 in H. discriminate.
      * apply (all_of_spec _ _ _ C2) in H. discriminate.
  - (* AddAll *)
    unfold add_all. destruct (_ && _) eqn:C; [|now apply inv_mono with n; [lia|]].
    apply andb_prop in C as [C1 C2].
    destruct (nth_error h i) as [ss|] eqn:E; [|now apply inv_mono with n; [lia|]].
    destruct (frozen ss) eqn:F; [now apply inv_mono with n; [lia|]|].
    destruct (source_set_add_rule h i pos _) as [h'| | |] eqn:A; try (now apply inv_mono with n; [lia|]).
    eapply add_rule_sound; [eassumption|exact A|apply nth_error_Some; congruence|intros (s & E' & F'); congruence| |].
    + split; cbn; [intros x (l & [=] & _)|reflexivity].
    + cbn. destruct NS as [N1 N2]. intros x [H|H] u ->.
      * rewrite forallb_forall in C1. split; [intros ->; contradiction|]. apply C1 in H. cbn in H. now apply Nat.ltb_lt.
      * split; [intros ->; contradiction|]. apply (all_of_spec _ _ _ C2) in H. cbn in H. now apply Nat.ltb_lt.
  - apply inv_mono with n; [lia|]. apply inv_ext with h; [apply ext_freeze|assumption].
Qed.

Lemma run_inv cs : forall h n, inv h n -> Forall no_self_add cs -> inv (run cs h) (n + length cs).
Proof.
  induction cs as [|c cs IH]; intros h n I F; cbn [run fold_left length].
  - now rewrite Nat.add_0_r.
  - inversion F as [|? ? F1 F2]; subst. replace (n + S (length cs)) with (S n + length cs) by lia.
    apply IH; [now apply step_inv|assumption].
Qed.
Lemma inv_empty : inv [] 0.
Proof.
  assert (forall i r, ~ has_rule [] i r) as N by (intros i r (ss & E & _); destruct i; discriminate).
  split; [intros i r H; destruct (N i r H)|intros i r t H; destruct (N i r H)|]. exists (fun _ => 0). split; [lia|]. intros i r t H. destruct (N i r H).
Qed.

(** sets that are frozen keep their rules *)
Definition keeps (h h' : heap) : Prop := forall i, is_frozen h i -> is_frozen h' i /\ option_map rules (nth_error h' i) = option_map rules (nth_error h i).
Lemma ext_keeps h h' : ext h h' -> keeps h h'.
Proof.
  intros X i F. split; [now apply ext_frozen with h|]. destruct F as (ss & E & F). destruct X as [_ X].
  destruct (X i ss E) as (s' & E' & R & _). rewrite E, E'. cbn. congruence.
Qed.
Lemma keeps_trans a b c : keeps a b -> keeps b c -> keeps a c.
Proof. intros H1 H2 i F. destruct (H1 i F) as [F1 E1]. destruct (H2 i F1) as [F2 E2]. split; [assumption|congruence]. Qed.

Lemma add_rule_keeps h i pos r h' : source_set_add_rule h i pos r = Good h' -> ~ is_frozen h i -> keeps h h'.
Proof.
  intros E NF. destruct (source_set_add_rule_ok _ _ _ _ _ E) as (r' & h1 & -> & X & _ & _ & Back).
  intros j F. destruct (ext_keeps _ _ X j F) as [F1 R1]. split; [now apply add_rule_frozen|]. rewrite <- R1, nth_update.
  destruct (Nat.eqb_spec i j) as [<-|N]; [contradiction|reflexivity].
Qed.
Lemma step_keeps h c : keeps h (step h c).
Proof.
  assert (Same : keeps h h) by (apply ext_keeps, ext_refl).
  destruct c as [|i pos r|i pos w t|i c s]; cbn [step].
  - intros i (ss & E & F). assert (nth_error (h ++ [{| rules := []; frozen := false |}]) i = Some ss) as E'.
    { rewrite nth_error_app1; [assumption|]. apply nth_error_Some. congruence. }
    split; [now exists ss|]. now rewrite E', E.
  - unfold add. destruct (_ && _ && _); [|assumption]. destruct (nth_error h i) as [ss|] eqn:E; [|assumption].
    destruct (frozen ss) eqn:F; [assumption|]. destruct (source_set_add_rule h i pos r) as [h'| | |] eqn:A; try assumption.
    apply add_rule_keeps with i pos r; [assumption|]. intros (s & E' & F'). congruence.
  - unfold add_all. destruct (_ && _); [|assumption]. destruct (nth_error h i) as [ss|] eqn:E; [|assumption].
    destruct (frozen ss) eqn:F; [assumption|]. destruct (source_set_add_rule h i pos _) as [h'| | |] eqn:A; try assumption.
    eapply add_rule_keeps; [exact A|]. intros (s & E' & F'). congruence.
  - apply ext_keeps, ext_freeze.
Qed.
Lemma run_keeps cs : forall h, keeps h (run cs h).
Proof.
  induction cs as [|c cs IH]; intros h; cbn [run fold_left]; [apply ext_keeps, ext_refl|].
  apply keeps_trans with (step h c); [apply step_keeps|apply IH].
Qed.

(** the sets that are parts of others are frozen, whatever is done *)
Definition targets (h : heap) : Prop := forall i r t, has_rule h i r -> among (Set_ t) (if_true r) \/ among (Set_ t) (if_false r) -> is_frozen h t.
Lemma targets_ext h h' : ext h h' -> targets h -> targets h'.
Proof. intros X T i r t H A. apply (ext_rules _ _ _ _ X) in H. apply ext_frozen with h; eauto. Qed.
Lemma targets_add h i pos r h' : targets h -> source_set_add_rule h i pos r = Good h' -> i < length h ->
  (forall t, among (Set_ t) (if_false r) -> False) -> (forall t, In (Set_ t) pos \/ among (Set_ t) (if_true r) -> t < length h) -> targets h'.
Proof.
  intros T E L NF New. destruct (source_set_add_rule_ok _ _ _ _ _ E) as (r' & h1 & -> & X & Fr & Hr & _).
  intros j x t H A. apply add_rule_frozen. apply add_rule_rules in H as [H|[-> ->]].
  - apply targets_ext with (h' := h1) in T; [|assumption]. eauto.
  - destruct Hr as [[-> _]|[-> _]]; cbn in *.
    + destruct A as [A|A]; [|destruct (NF _ A)]. apply Fr; auto.
    + destruct A as [(l & [= <-] & A)|(l & [=] & _)]. apply Fr; [now exists pos|auto].
  - destruct X as [-> _]. assumption.
Qed.
Lemma step_targets h c : targets h -> targets (step h c).
Proof.
  intros T. destruct c as [|i pos r|i pos w t|i c s]; cbn [step].
  - intros j r t (ss & E & H) A. destruct (Nat.lt_ge_cases j (length h)) as [L|L].
    + rewrite nth_error_app1 in E by assumption. destruct (T j r t) as (s & Es & Fs); [now exists ss|assumption|].
      exists s. split; [|assumption]. rewrite nth_error_app1; [assumption|]. apply nth_error_Some. congruence.
    + rewrite nth_error_app2 in E by assumption. destruct (j - length h) as [|k]; cbn in E; [injection E as <-; destruct H|destruct k; discriminate].
  - unfold add. destruct (_ && _ && _) eqn:C; [|assumption]. apply andb_prop in C as [C C3]. apply andb_prop in C as [C1 C2].
    destruct (nth_error h i) as [ss|] eqn:E; [|assumption].
    destruct (frozen ss) eqn:F; [assumption|]. destruct (source_set_add_rule h i pos r) as [h'| | |] eqn:A; try assumption.
    apply targets_add with h i pos r; [assumption|assumption|apply nth_error_Some; congruence| |].
    + intros t H. apply (all_of_spec _ _ _ C3) in H. discriminate.
    + intros t [H|H]; exfalso; [rewrite forallb_forall in C1; apply C1 in H; discriminate|apply (all_of_spec _ _ _ C2) in H; discriminate].
  - unfold add_all. destruct (_ && _) eqn:C; [|assumption]. apply andb_prop in C as [C1 C2].
    destruct (nth_error h i) as [ss|] eqn:E; [|assumption].
    destruct (frozen ss) eqn:F; [assumption|]. destruct (source_set_add_rule h i pos _) as [h'| | |] eqn:A; try assumption.
    eapply targets_add; [exact T|exact A|apply nth_error_Some; congruence| |].
    + intros u (l & [=] & _).
    + cbn. intros u [H|H]; [rewrite forallb_forall in C1; apply C1 in H|apply (all_of_spec _ _ _ C2) in H]; cbn in H; now apply Nat.ltb_lt.
  - apply targets_ext with h; [apply ext_freeze|assumption].
Qed.
Lemma run_targets cs : forall h, targets h -> targets (run cs h).
Proof. induction cs as [|c cs IH]; intros h T; cbn [run fold_left]; [assumption|]. apply IH. now apply step_targets. Qed.
Lemma targets_empty : targets [].
Proof. intros i r t (ss & E & _). destruct i; discriminate. Qed.

(** collecting from frozen sets does not depend on the rest *)
Section Stable.
Variable found : nat -> bool.
Variable m : mode.
Variable strict : bool.
Variable cf : option conf.
Lemma collect_items_cong n1 n2 l : (forall t, In (Set_ t) l -> forall c, n1 t c = n2 t c) -> forall c, collect_items m n1 l c = collect_items m n2 l c.
Proof.
  induction l as [|x l IH]; intros H c; cbn [collect_items]; [reflexivity|].
  assert (forall c, collect_items m n1 l c = collect_items m n2 l c) as IH' by (apply IH; intros t K; apply H; now right).
  destruct x; try apply IH'. rewrite H by (now left). destruct (n2 id c); try reflexivity. apply IH'.
Qed.
Lemma collect_rule_cong n1 n2 r : (forall t, among (Set_ t) (if_true r) \/ among (Set_ t) (if_false r) -> forall c, n1 t c = n2 t c) ->
  forall c, collect_rule found m strict cf n1 r c = collect_rule found m strict cf n2 r c.
Proof.
  intros H c. unfold collect_rule.
  assert (forall l, if_true r = Some l -> forall c, collect_items m n1 l c = collect_items m n2 l c) as HT.
  { intros l E. apply collect_items_cong. intros t I. apply H. left. now exists l. }
  assert (forall l, if_false r = Some l -> forall c, collect_items m n1 l c = collect_items m n2 l c) as HF.
  { intros l E. apply collect_items_cong. intros t I. apply H. right. now exists l. }
  destruct (match when r with Some w => _ | None => _ end) as [c1|c1| |]; try reflexivity.
  assert (forall c2, match if_false r with
     | Some l => if match cf with None => true | Some _ => negb (matched c2) end then ignore (collect_items m n1 l c2) else Cont c2
     | None => Cont c2 end = match if_false r with
     | Some l => if match cf with None => true | Some _ => negb (matched c2) end then ignore (collect_items m n2 l c2) else Cont c2
     | None => Cont c2 end) as E2.
  { intros c2. destruct (if_false r) as [l|]; [|reflexivity]. now rewrite HF. }
  destruct (if_true r) as [l|]; [|apply E2].
  rewrite HT by reflexivity. destruct (if matched c1 then _ else _) as [c2|c2| |]; try reflexivity. apply E2.
Qed.
Lemma collect_rules_cong n1 n2 l : (forall r, In r l -> forall t, among (Set_ t) (if_true r) \/ among (Set_ t) (if_false r) -> forall c, n1 t c = n2 t c) ->
  forall c, collect_rules found m strict cf n1 l c = collect_rules found m strict cf n2 l c.
Proof.
  induction l as [|r l IH]; intros H c; cbn [collect_rules]; [reflexivity|].
  rewrite (collect_rule_cong n1 n2) by (apply H; now left). destruct (collect_rule found m strict cf n2 r c); try reflexivity.
  apply IH. intros r' I. apply H. now right.
Qed.
Lemma collect_set_stable h h' : targets h -> keeps h h' -> forall fuel i, is_frozen h i ->
  forall c, collect_set found h' m strict cf fuel i c = collect_set found h m strict cf fuel i c.
Proof.
  intros T K. induction fuel as [|fuel IH]; intros i F c; cbn [collect_set]; [reflexivity|].
  destruct (K i F) as [_ E]. destruct F as (ss & E1 & F1). rewrite E1 in E. cbn in E. rewrite E1.
  destruct (nth_error h' i) as [s'|]; [|discriminate]. cbn in E. injection E as ->.
  apply collect_rules_cong. intros r I t A c'. apply IH. apply T with i r; [now exists ss|assumption].
Qed.
End Stable.

(** ** Strict application *)
Section Strict.
Variable found : nat -> bool.
Variable cf : conf.
Hypothesis cf_ok : forall k v, In (k, v) cf -> v <> COther.
Variable m : mode.
Lemma rule_match_cases l : forall c, (exists c', rule_match found true (Some cf) l c = Cont c') \/ rule_match found true (Some cf) l c = Fail c.
Proof.
  induction l as [|[k|d] l IH]; intros c; cbn [rule_match]; [left; now exists c| |].
  - destruct (index cf k) as [v|] eqn:E; [|right; reflexivity]. apply index_in in E. apply cf_ok in E.
    destruct v as [[]|s|n|]; [apply IH|left; eexists; reflexivity| | |congruence].
    + destruct (0 <? length s); [apply IH|left; eexists; reflexivity].
    + destruct (n >? 0)%Z; [apply IH|left; eexists; reflexivity].
  - destruct (found d); [apply IH|left; eexists; reflexivity].
Qed.
Definition flat (r : rule) : Prop := forall t, ~ among (Set_ t) (if_true r) /\ ~ among (Set_ t) (if_false r).
Lemma collect_items_flat n l : (forall t, ~ In (Set_ t) l) -> forall c, exists c', collect_items m n l c = Cont c'.
Proof.
  induction l as [|x l IH]; intros N c; cbn [collect_items]; [now exists c|].
  assert (forall t, ~ In (Set_ t) l) as N' by (intros t H; apply (N t); now right).
  destruct x; try (apply IH; assumption). exfalso. apply (N id). now left.
Qed.
Lemma collect_rule_strict n r c : flat r ->
  ((exists c', collect_rule found m true (Some cf) n r c = Cont c') /\ ~ undecided (fun d => found d = true) cf r)
  \/ ((exists c', collect_rule found m true (Some cf) n r c = Fail c') /\ undecided (fun d => found d = true) cf r).
Proof.
  intros Fl. unfold collect_rule, undecided, conditions.
  assert (Rest : forall c1, exists c', match match if_true r with
            | Some l =>
                if matched c1 then
                  ignore (collect_items m n l (match m, when r with Dependencies, Some w => when_deps w c1 | _, _ => c1 end))
                else Cont c1
            | None => Cont c1
            end with
      | Cont c =>
          match if_false r with
          | Some l => if negb (matched c) then ignore (collect_items m n l c) else Cont c
          | None => Cont c
          end
      | o => o
      end = Cont c').
  { intros c1. unfold flat, among in Fl.
    assert (exists c2, match if_true r with
            | Some l =>
                if matched c1 then
                  ignore (collect_items m n l (match m, when r with Dependencies, Some w => when_deps w c1 | _, _ => c1 end))
                else Cont c1
            | None => Cont c1
            end = Cont c2) as (c2 & ->).
    { destruct (if_true r) as [l|]; [|now exists c1]. destruct (matched c1); [|now exists c1].
      edestruct (collect_items_flat n l) as (c2 & ->); [|now exists c2]. intros t H. destruct (Fl t) as [F _]. apply F. now exists l. }
    destruct (if_false r) as [l|]; [|now exists c2]. destruct (negb (matched c2)); [|now exists c2].
    edestruct (collect_items_flat n l) as (c3 & ->); [|now exists c3]. intros t H. destruct (Fl t) as [_ F]. apply F. now exists l. }
  destruct (when r) as [w|] eqn:W.
  - pose proof (rule_match_fail found true cf cf_ok w (set_match true c) eq_refl) as RF.
    destruct (rule_match_cases w (set_match true c)) as [(c1 & E)|E]; rewrite E in *.
    + left. split; [apply Rest|]. intros U. now apply (proj2 RF U c1).
    + right. split; [now eexists|]. apply RF. intros x. discriminate.
  - left. split; [apply Rest|]. intros (b & k & a & E & _). now destruct b.
Qed.
Lemma collect_rules_strict n l : (forall r, In r l -> flat r) -> forall c,
  ((exists c', collect_rules found m true (Some cf) n l c = Cont c') /\ forall r, In r l -> ~ undecided (fun d => found d = true) cf r)
  \/ ((exists c', collect_rules found m true (Some cf) n l c = Fail c') /\ exists r, In r l /\ undecided (fun d => found d = true) cf r).
Proof.
  induction l as [|r l IH]; intros Fl c; cbn [collect_rules].
  - left. split; [now exists c|easy].
  - destruct (collect_rule_strict n r c (Fl r (or_introl eq_refl))) as [[(c1 & ->) U]|[(c1 & ->) U]].
    + destruct (IH (fun r H => Fl r (or_intror H)) c1) as [[E N]|[E (r' & I & U')]].
      * left. split; [assumption|]. intros r' [<-|I]; auto.
      * right. split; [assumption|]. exists r'. split; [now right|assumption].
    + right. split; [now exists c1|]. exists r. split; [now left|assumption].
Qed.
End Strict.

(** ** All sources *)
Section All.
Variable found : nat -> bool.
Variable h : heap.
Variable m : mode.
Notation pick := (mentioned (has_rule h)).
Definition all_good (nested : nat -> ctx -> outcome) (t : nat) : Prop :=
  forall c, exists c' l, nested t c = Cont c' /\ res c' = res c ++ l /\ forall x, In x l <-> pick t x /\ fits m x.

Lemma all_items_ok nested l : (forall t, In (Set_ t) l -> all_good nested t) -> forall c,
  exists c' o, collect_items m nested l c = Cont c' /\ res c' = res c ++ o
    /\ forall x, In x o <-> fits m x /\ ((In x l /\ ~ S_SourceSet.nested x) \/ exists t, In (Set_ t) l /\ pick t x).
Proof.
  induction l as [|y l IH]; intros G c; cbn [collect_items].
  - exists c, []. rewrite app_nil_r. split; [reflexivity|]. split; [reflexivity|].
    intros x. cbn. split; [easy|]. intros (_ & [[[] _]|(t & [] & _)]).
  - assert (G' : forall t, In (Set_ t) l -> all_good nested t) by (intros t H; apply G; now right).
    assert (Skip : ~ fits m y -> ~ S_SourceSet.nested y -> exists c' o, collect_items m nested l c = Cont c' /\ res c' = res c ++ o
        /\ forall x, In x o <-> fits m x /\ ((In x (y :: l) /\ ~ S_SourceSet.nested x) \/ exists t, In (Set_ t) (y :: l) /\ pick t x)).
    { intros F NN. destruct (IH G' c) as (c' & o & E & R & I). exists c', o. split; [assumption|]. split; [assumption|].
      intros x. rewrite I. cbn. split; intros [Fx [[H N]|(t & H & P)]]; (split; [assumption|]).
        + left. tauto.
        + right. exists t. tauto.
        + destruct H as [->|H]; [contradiction|tauto].
        + destruct H as [->|H]; [exfalso; apply NN; now exists t|]. right. exists t. tauto. }
    assert (Take : fits m y -> ~ S_SourceSet.nested y -> exists c' o, collect_items m nested l (push y c) = Cont c' /\ res c' = res c ++ o
        /\ forall x, In x o <-> fits m x /\ ((In x (y :: l) /\ ~ S_SourceSet.nested x) \/ exists t, In (Set_ t) (y :: l) /\ pick t x)).
    { intros F NN. destruct (IH G' (push y c)) as (c' & o & E & R & I). exists c', (y :: o). split; [assumption|]. split.
      { rewrite R. cbn. now rewrite <- app_assoc. }
      intros x. cbn [In]. rewrite I. split.
        + intros [<-|[Fx [[H N]|(t & H & P)]]]; (split; [assumption|]); [left; tauto|left; tauto|right; exists t; tauto].
        + intros [Fx [[[H|H] N]|(t & [H|H] & P)]]; [tauto|tauto| |].
          * subst y. exfalso. apply NN. now exists t.
          * right. split; [assumption|]. right. now exists t. }
    destruct y as [s|s|i|i|i|i].
    1-5: destruct m;
      ((apply Take; cbn; [first [exact I|now eexists]|intros (j & [=])]) ||
       (apply Skip; cbn; [first [now intros [d [=]]|tauto]|intros (j & [=])])).
    destruct (G i (or_introl eq_refl) c) as (c1 & l1 & -> & R1 & I1).
    destruct (IH G' c1) as (c' & o & E & R & I). exists c', (l1 ++ o). split; [assumption|]. split.
    { now rewrite R, R1, <- app_assoc. }
    intros x. rewrite in_app_iff, I1, I. cbn [In]. split.
    + intros [[P F]|[F [[H N]|(t & H & P)]]].
      * split; [assumption|]. right. exists i. tauto.
      * split; [assumption|]. left. tauto.
      * split; [assumption|]. right. exists t. tauto.
    + intros [F [[[H|H] N]|(t & [H|H] & P)]].
      * exfalso. apply N. subst x. now exists i.
      * right. tauto.
      * injection H as ->. now left.
      * right. split; [assumption|]. right. now exists t.
Qed.

Definition all_contrib (r : rule) (x : item) : Prop :=
  (among x (if_true r) /\ ~ S_SourceSet.nested x)
  \/ (if_true r <> None /\ exists d, x = Dep d /\ In (Found d) (conditions r))
  \/ among x (if_false r)
  \/ (exists t, among (Set_ t) (if_true r) /\ pick t x).

Lemma all_rule_match l : forall c, (forall d, In (Found d) l -> found d = true) -> rule_match found true None l c = Cont c.
Proof.
  induction l as [|[k|d] l IH]; intros c H; cbn [rule_match]; [reflexivity| |].
  - apply IH. intros d I. apply H. now right.
  - rewrite (H d) by (now left). apply IH. intros e I. apply H. now right.
Qed.

Lemma all_rule_ok nested r : rule_ok r -> (forall t, among (Set_ t) (if_true r) -> all_good nested t) ->
  (forall d, In (Found d) (conditions r) -> found d = true) -> forall c,
  exists c' o, collect_rule found m true None nested r c = Cont c' /\ res c' = res c ++ o
    /\ forall x, In x o <-> all_contrib r x /\ fits m x.
Proof.
  intros [RF RN] G HF c. unfold collect_rule.
  assert (match when r with Some w => rule_match found true None w (set_match true c) | None => Cont (set_match true c) end
            = Cont {| res := res c; matched := true |}) as ->.
  { unfold conditions in HF. destruct (when r) as [w|]; [|reflexivity]. now rewrite all_rule_match. }
  cbn [matched].
  assert (exists c1 o1, match if_true r with
        | Some l => ignore (collect_items m nested l (match m with Sources => {| res := res c; matched := true |} | Dependencies =>
             match when r with Some w => when_deps w {| res := res c; matched := true |} | None => {| res := res c; matched := true |} end end))
        | None => Cont {| res := res c; matched := true |} end = Cont c1
        /\ res c1 = res c ++ o1
        /\ forall x, In x o1 <-> ((among x (if_true r) /\ ~ S_SourceSet.nested x)
             \/ (if_true r <> None /\ exists d, x = Dep d /\ In (Found d) (conditions r))
             \/ (exists t, among (Set_ t) (if_true r) /\ pick t x)) /\ fits m x) as (c1 & o1 & -> & R1 & I1).
  { destruct (if_true r) as [l|] eqn:ET.
    - set (c0 := match m with Sources => _ | Dependencies => _ end).
      assert (exists o0, c0 = {| res := res c ++ o0; matched := true |} /\
          forall x, In x o0 <-> fits m x /\ exists d, x = Dep d /\ In (Found d) (conditions r)) as (o0 & E0 & I0).
      { subst c0. unfold fits, conditions. destruct m.
        - exists []. rewrite app_nil_r. split; [reflexivity|]. intros x. split; [easy|]. intros (F & d & -> & _). exact F.
        - destruct (when r) as [w|].
          + destruct (when_deps_ok w {| res := res c; matched := true |}) as (o & -> & I). exists o. split; [reflexivity|].
            intros x. rewrite I. split; [|tauto]. intros (d & -> & H). split; [now exists d|]. exists d. tauto.
          + exists []. rewrite app_nil_r. split; [reflexivity|]. intros x. split; [easy|]. intros (_ & d & _ & []). }
      rewrite E0.
      destruct (all_items_ok nested l) with (c := {| res := res c ++ o0; matched := true |}) as (c' & o & -> & R & I).
      { intros t H. apply G. exists l. tauto. }
      exists c', (o0 ++ o). split; [reflexivity|]. cbn in R. rewrite <- app_assoc in R. split; [assumption|].
      intros x. rewrite in_app_iff, I0, I. unfold among. split.
      * intros [(F & d & -> & H)|[F [[H N]|(t & H & P)]]]; (split; [|assumption]).
        -- right; left. split; [discriminate|]. now exists d.
        -- left. split; [|assumption]. now exists l.
        -- right; right. exists t. split; [|assumption]. now exists l.
      * intros [[((l' & [= <-] & H) & N)|[(_ & d & -> & H)|(t & (l' & [= <-] & H) & P)]] F].
        -- right. split; [assumption|]. left. tauto.
        -- left. split; [assumption|]. now exists d.
        -- right. split; [assumption|]. right. now exists t.
    - exists {| res := res c; matched := true |}, []. rewrite app_nil_r. split; [reflexivity|]. split; [reflexivity|].
      intros x. split; [easy|]. unfold among.
      intros [[((l' & [=] & _) & _)|[(N & _)|(t & (l' & [=] & _) & _)]] _]; contradiction. }
  destruct (if_false r) as [l|] eqn:EF.
  - destruct (all_items_ok nested l) with (c := c1) as (c' & o & -> & R & I).
    { intros t H. destruct (RF (Set_ t)). exists l. tauto. }
    exists c', (o1 ++ o). split; [reflexivity|]. split; [now rewrite R, R1, <- app_assoc|].
    intros x. rewrite in_app_iff, I1, I. unfold all_contrib. rewrite EF. split.
    + intros [[[C|[C|C]] F]|[F [[H N]|(t & H & _)]]].
      * tauto.
      * tauto.
      * tauto.
      * split; [|assumption]. right; right; left. now exists l.
      * destruct (RF (Set_ t)). exists l. tauto.
    + intros [[C|[C|[(l' & [= <-] & H)|C]]] F]; try (left; tauto).
      right. split; [assumption|]. left. split; [assumption|]. apply source_not_nested, RF. now exists l.
  - exists c1, o1. split; [reflexivity|]. split; [assumption|]. intros x. rewrite I1. unfold all_contrib. rewrite EF.
    assert (~ among x None) by (intros (l & [=] & _)). tauto.
Qed.

Lemma all_rules_ok nested l : (forall r, In r l -> rule_ok r /\ (forall t, among (Set_ t) (if_true r) -> all_good nested t) /\
  (forall d, In (Found d) (conditions r) -> found d = true)) -> forall c,
  exists c' o, collect_rules found m true None nested l c = Cont c' /\ res c' = res c ++ o
    /\ forall x, In x o <-> (exists r, In r l /\ all_contrib r x) /\ fits m x.
Proof.
  induction l as [|r l IH]; intros G c; cbn [collect_rules].
  - exists c, []. rewrite app_nil_r. split; [reflexivity|]. split; [reflexivity|]. intros x. split; [easy|]. intros [(r & [] & _) _].
  - destruct (G r (or_introl eq_refl)) as (Ok & Gn & HK).
    destruct (all_rule_ok nested r Ok Gn HK c) as (c1 & o1 & -> & R1 & I1).
    destruct (IH (fun r H => G r (or_intror H)) c1) as (c' & o & -> & R & I).
    exists c', (o1 ++ o). split; [reflexivity|]. split; [now rewrite R, R1, <- app_assoc|].
    intros x. rewrite in_app_iff, I1, I. split.
    + intros [(C & F)|[(r' & H & C) F]]; (split; [|assumption]); [exists r|exists r']; cbn; tauto.
    + intros [(r' & [<-|H] & C) F]; [left; tauto|right]. split; [|assumption]. now exists r'.
Qed.

Variable rank : nat -> nat.
Hypothesis h_ok : forall i r, has_rule h i r -> rule_ok r.
Hypothesis h_rank : forall i r t, has_rule h i r -> among (Set_ t) (if_true r) -> t < length h /\ rank t < rank i.

Lemma all_set_ok fuel : forall i, rank i < fuel -> i < length h ->
  (forall u, part (has_rule h) i u -> forall r, has_rule h u r -> forall d, In (Found d) (conditions r) -> found d = true) ->
  all_good (collect_set found h m true None fuel) i.
Proof.
  induction fuel as [|fuel IH]; intros i Hr Hi HK; [lia|]. intros c. cbn [collect_set].
  destruct (nth_error h i) as [ss|] eqn:E; [|apply nth_error_None in E; lia].
  assert (HR : forall r, In r (rules ss) <-> has_rule h i r).
  { intros r. split; [intros H; exists ss; tauto|]. intros (ss' & E' & H). congruence. }
  destruct (all_rules_ok (collect_set found h m true None fuel) (rules ss)) with (c := c) as (c' & o & -> & R & I).
  { intros r Hin. apply HR in Hin. split; [now apply (h_ok i)|]. split.
    - intros t Ht. destruct (h_rank i r t Hin Ht) as [Lt Rt]. apply IH; [lia|assumption|].
      intros u Pu. apply HK. now apply part_set with r t.
    - exact (HK i (part_self _ i) r Hin). }
  exists c', o. split; [reflexivity|]. split; [assumption|]. intros x. rewrite I. split; intros [H F]; (split; [|assumption]).
  - destruct H as (r & Hin & [C|[C|[C|C]]]); apply HR in Hin.
    + apply m_true with r; tauto.
    + destruct C as (N & d & -> & Hd). now apply m_when with r.
    + apply m_false with r; tauto.
    + destruct C as (t & Ht & P). now apply m_set with r t.
  - unfold all_contrib. inversion H as [s r y Hr' Hy N|s r d Hr' N Hd|s r y Hr' Hy|s r t y Hr' Ht P]; subst; exists r; (split; [now apply HR|]).
    + tauto.
    + right; left. split; [assumption|]. now exists d.
    + tauto.
    + right; right; right. now exists t.
Qed.
End All.

(** what is picked depends on the rules only *)
Lemma picked_ext f v (r1 r2 : nat -> rule -> Prop) s x : (forall i r, r1 i r -> r2 i r) -> picked f v r1 s x -> picked f v r2 s x.
Proof.
  intros E H. induction H as [s r x H A T N|s r d H A T D|s r x H A T|s r t x H A T P IH].
  - apply p_true with r; auto.
  - apply p_when with r; auto.
  - apply p_false with r; auto.
  - apply p_set with r t; auto.
Qed.
Lemma part_ext (r1 r2 : nat -> rule -> Prop) s x : (forall i r, r1 i r -> r2 i r) -> part r1 s x -> part r2 s x.
Proof. intros E H. induction H; [constructor|]. eapply part_set; eauto. Qed.
