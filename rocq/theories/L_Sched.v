(** Lemmas for P_Build: the invariant of the scheduler loop. *)
From Coq Require Import List Bool Arith ZArith NArith Lia Permutation.
From Verif Require Import M_Build S_Build L_Build.
Import ListNotations.

Lemma unchanged_mono : forall g fs tr tr' n, incl tr tr' -> unchanged g fs tr n -> unchanged g fs tr' n.
Proof.
  intros g fs tr tr' n I H. induction H as [n G|n e G O|n e u G R F U|n e G S A IH].
  - now apply unchanged_source.
  - now apply (unchanged_clean _ _ _ _ e).
  - apply (unchanged_restat _ _ _ _ e u); auto.
  - now apply (unchanged_inputs _ _ _ _ e).
Qed.

Definition token := (nat * nat * bool)%type.
Definition t_edge (t : token) : nat := snd (fst t).

Section Sched.
Variables (g : graph) (fs : files) (o : opts) (targets : list nat).
Hypothesis WF : well_formed g.

Definition toks (n : nat) (b : bool) : list token := map (fun e => (n, e, b)) (uses g n).
Definition tokc (T : list token) (e : nat) : nat := length (filter (fun t => t_edge t =? e) T).
Definition unsettled (s : stage) : bool := match s with Waiting | Ready | Running | Failed => true | _ => false end.
Definition pend (st : state) (n : nat) : bool :=
  match gen g n with Some d => unsettled (stages st d) | None => false end.
Definition cnt (st : state) (e : nat) : nat := length (filter (pend st) (ins g e)).

Lemma tokc_app : forall a b e, tokc (a ++ b) e = tokc a e + tokc b e.
Proof. intros. unfold tokc. now rewrite filter_app, app_length. Qed.
Lemma tokc_cons : forall t T e, tokc (t :: T) e = (if t_edge t =? e then 1 else 0) + tokc T e.
Proof. intros. unfold tokc. cbn. now destruct (t_edge t =? e). Qed.
Lemma tokc_toks : forall n b e, tokc (toks n b) e = count_occ Nat.eq_dec (uses g n) e.
Proof.
  intros n b e. unfold toks. induction (uses g n) as [|x l IH]; [reflexivity|].
  cbn [map count_occ]. rewrite tokc_cons. cbn [t_edge fst snd]. rewrite IH.
  destruct (Nat.eqb_spec x e) as [->|N].
  - now destruct (Nat.eq_dec e e).
  - now destruct (Nat.eq_dec x e).
Qed.

Definition out_toks (ms : list nat) (pr : nat -> bool) : list token := flat_map (fun m => toks m (pr m)) ms.

Lemma sum_count : forall (l xs : list nat), NoDup l ->
  fold_right (fun m s => count_occ Nat.eq_dec xs m + s) 0 l = length (filter (fun x => existsb (Nat.eqb x) l) xs).
Proof.
  intros l xs H. induction xs as [|x xs IH].
  - cbn. clear. induction l; cbn; auto.
  - assert (X : fold_right (fun m s => count_occ Nat.eq_dec (x :: xs) m + s) 0 l =
                (if existsb (Nat.eqb x) l then 1 else 0) + fold_right (fun m s => count_occ Nat.eq_dec xs m + s) 0 l).
    { clear IH. induction H as [|m l Hm H IH]; [reflexivity|].
      cbn [fold_right existsb]. rewrite IH. cbn [count_occ].
      destruct (Nat.eq_dec x m) as [->|N].
      - rewrite Nat.eqb_refl. cbn [orb]. destruct (existsb (Nat.eqb m) l) eqn:E; [|lia].
        apply existsb_exists in E as (y & Hy & E). apply Nat.eqb_eq in E. subst y. contradiction.
      - apply Nat.eqb_neq in N. rewrite N. cbn [orb]. lia. }
    rewrite X, IH. cbn [filter]. now destruct (existsb (Nat.eqb x) l).
Qed.

Definition from (e n : nat) : bool := match gen g n with Some d => d =? e | None => false end.

Lemma tokc_outs : forall e pr d, tokc (out_toks (outs g e) pr) d = length (filter (from e) (ins g d)).
Proof.
  intros e pr d.
  assert (X : forall l, tokc (out_toks l pr) d = fold_right (fun m s => count_occ Nat.eq_dec (ins g d) m + s) 0 l).
  { induction l as [|m l IH]; [reflexivity|]. unfold out_toks in *. cbn [flat_map fold_right].
    rewrite tokc_app, IH, tokc_toks. now rewrite (wf_uses g WF). }
  rewrite X, sum_count by apply (wf_outs g WF). f_equal. apply filter_ext_In. intros n _. unfold from.
  destruct (existsb (Nat.eqb n) (outs g e)) eqn:E.
  - apply existsb_In in E. apply (wf_gen g WF) in E. rewrite E. now rewrite Nat.eqb_refl.
  - destruct (gen g n) as [x|] eqn:G; [|reflexivity]. destruct (Nat.eqb_spec x e) as [->|]; [|reflexivity].
    apply (wf_gen g WF) in G. apply existsb_In in G. congruence.
Qed.

Lemma In_out_toks : forall e pr d n, In n (ins g d) -> gen g n = Some e -> In (n, d, pr n) (out_toks (outs g e) pr).
Proof.
  intros e pr d n Hn G. apply in_flat_map. exists n. split; [now apply (wf_gen g WF)|].
  unfold toks. apply in_map_iff. exists d. split; [reflexivity|]. apply (count_occ_In Nat.eq_dec). rewrite (wf_uses g WF).
  now apply count_occ_In.
Qed.
Lemma out_toks_In : forall e pr d n b, In (n, d, b) (out_toks (outs g e) pr) -> In n (ins g d) /\ gen g n = Some e /\ b = pr n.
Proof.
  intros e pr d n b H. apply in_flat_map in H as (m & Hm & H). unfold toks in H.
  apply in_map_iff in H as (x & E & H). injection E as -> -> <-.
  split; [|split; [now apply (wf_gen g WF)|reflexivity]].
  apply (count_occ_In Nat.eq_dec). rewrite <- (wf_uses g WF). now apply count_occ_In.
Qed.

(** What never changes after planning. *)
Record Static (st : state) : Prop := {
  S_wanted : forall e, f_work (es st e) = true <-> wanted g targets e;
  S_out : forall e, f_work (es st e) = true -> (f_out (es st e) = true <-> self_old g fs e);
  S_dirty : forall e, f_work (es st e) = true -> (f_dirty (es st e) = true <-> outdated g fs e);
  S_edge : forall e, f_work (es st e) = true -> e < nedges g
}.

Record Inv (st : state) (T : list token) : Prop := {
  I_static : Static st;
  I_stage : forall e, f_work (es st e) = true -> stages st e <> Unused /\ stages st e <> Adding;
  I_unused : forall e, f_work (es st e) = false -> stages st e = Unused;
  I_wait : forall e, f_work (es st e) = true -> stages st e = Waiting ->
     nblock (es st e) = Z.of_nat (cnt st e + tokc T e) /\ (0 < nblock (es st e))%Z /\
     (f_out (es st e) = false -> (nblock (es st e) <= nprune (es st e))%Z) /\
     (f_dirty (es st e) = false -> nprune (es st e) = nblock (es st e));
  I_why : forall e, f_work (es st e) = true -> stages st e = Waiting ->
     f_out (es st e) = false -> f_in (es st e) = true -> nprune (es st e) = nblock (es st e) ->
     forall n, In n (ins g e) -> pend st n = true \/ (exists b, In (n, e, b) T) \/ unchanged g fs (trace st) n;
  I_rest : forall e, f_work (es st e) = true -> stages st e <> Waiting -> cnt st e = 0 /\ tokc T e = 0;
  I_hot : forall e, match stages st e with
     | Ready | Running | Finished | Failed => f_dirty (es st e) = true
     | UpToDate => f_dirty (es st e) = false
     | Pruned => f_out (es st e) = false /\
                 (f_in (es st e) = true -> forall n, In n (ins g e) -> unchanged g fs (trace st) n)
     | _ => True
     end;
  I_tok : forall n e b, In (n, e, b) T -> In n (ins g e) /\ (b = true -> unchanged g fs (trace st) n);
  I_queue : Qinv g o st
}.

Lemma Inv_needs : forall st T e d, Inv st T -> f_work (es st e) = true -> needs g e d -> f_work (es st d) = true.
Proof.
  intros st T e d I H N. apply (S_wanted _ (I_static _ _ I)). apply (S_wanted _ (I_static _ _ I)) in H.
  now apply (wanted_needed _ _ e).
Qed.

Lemma pend_ext : forall st st', stages st' = stages st -> pend st' = pend st.
Proof. intros st st' E. unfold pend. now rewrite E. Qed.

(** An edge in [unsettled] stage with nothing to wait for becomes settled and
    its outputs are announced. *)
Lemma Inv_settle : forall st st' T0 T e s pr, Inv st T0 ->
  (forall d, d <> e -> tokc T0 d = tokc T d) -> (forall t, In t T0 -> In t T \/ t_edge t = e) -> incl T T0 ->
  f_work (es st e) = true ->
  unsettled (stages st e) = true -> unsettled s = false -> s <> Unused -> s <> Adding ->
  cnt st e = 0 -> tokc T e = 0 ->
  stages st' = upf (stages st) e s ->
  (forall d, d <> e -> es st' d = es st d) ->
  f_work (es st' e) = f_work (es st e) -> f_out (es st' e) = f_out (es st e) -> f_in (es st' e) = f_in (es st e) ->
  trace st' = trace st -> Qinv g o st' ->
  match s with
  | Finished => f_dirty (es st e) = true
  | UpToDate => f_dirty (es st e) = false
  | Pruned => f_out (es st e) = false /\ (f_in (es st e) = true -> forall n, In n (ins g e) -> unchanged g fs (trace st) n)
  | _ => True
  end ->
  (forall m, In m (outs g e) -> pr m = true -> unchanged g fs (trace st) m) ->
  Inv st' (out_toks (outs g e) pr ++ T).
Proof.
  intros st st' T0 T e s pr I TC TI TT We Us Ss N1 N2 Ce Te Sg Es Fw Fo Fi Tr Q Hs Hpr.
  assert (FW : forall d, f_work (es st' d) = f_work (es st d)).
  { intros d. destruct (Nat.eq_dec d e) as [->|N]; [auto|now rewrite Es]. }
  assert (FO : forall d, f_out (es st' d) = f_out (es st d)).
  { intros d. destruct (Nat.eq_dec d e) as [->|N]; [auto|now rewrite Es]. }
  assert (FI : forall d, f_in (es st' d) = f_in (es st d)).
  { intros d. destruct (Nat.eq_dec d e) as [->|N]; [auto|now rewrite Es]. }
  assert (FD : forall d, f_dirty (es st' d) = f_dirty (es st d)) by (intros; unfold f_dirty; now rewrite FO, FI).
  assert (PD : forall n, pend st' n = pend st n && negb (from e n)).
  { intros n. unfold pend, from. destruct (gen g n) as [d|]; [|reflexivity]. rewrite Sg, upf_cases.
    destruct (Nat.eqb_spec d e) as [->|]; cbn; [now rewrite Ss, andb_false_r|now rewrite andb_true_r]. }
  assert (FP : forall n, from e n = true -> pend st n = true).
  { intros n. unfold pend, from. destruct (gen g n) as [d|]; [|discriminate]. intros H. apply Nat.eqb_eq in H. now subst. }
  assert (BAL : forall d, cnt st d = cnt st' d + tokc (out_toks (outs g e) pr) d).
  { intros d. rewrite tokc_outs. unfold cnt. induction (ins g d) as [|n l IH]; [reflexivity|]. cbn.
    rewrite PD. specialize (FP n). destruct (pend st n), (from e n); cbn; try lia;
    (exfalso; assert (false = true) by auto; discriminate). }
  destruct I as [IS IST IU IW IY IR IH IT IQ].
  split; auto.
  - destruct IS. split; intros d; rewrite ?FW, ?FO, ?FD; auto.
  - intros d. rewrite FW, Sg, upf_cases. destruct (Nat.eqb_spec d e) as [->|]; auto.
  - intros d. rewrite FW, Sg, upf_cases. destruct (Nat.eqb_spec d e) as [->|]; auto. congruence.
  - intros d. rewrite FW, Sg, upf_cases. destruct (Nat.eqb_spec d e) as [->|N]; [intros _ ->; discriminate|].
    intros Wd Sd. rewrite Es by auto. destruct (IW d Wd Sd) as (A & B & C & D). split; auto.
    rewrite A, tokc_app, (BAL d), (TC d N). f_equal. lia.
  - intros d. rewrite FW, Sg, upf_cases. destruct (Nat.eqb_spec d e) as [->|N]; [intros _ ->; discriminate|].
    intros Wd Sd. rewrite Es by auto. intros F1 F2 F3 n Hn.
    destruct (IY d Wd Sd F1 F2 F3 n Hn) as [P|[[b P]|P]].
    + destruct (from e n) eqn:Fr.
      * right. left. exists (pr n). apply in_app_iff. left. apply In_out_toks; auto.
        unfold from in Fr. destruct (gen g n) as [x|]; [|discriminate]. apply Nat.eqb_eq in Fr. now subst.
      * left. rewrite PD, P, Fr. reflexivity.
    + destruct (TI _ P) as [P'|P']; [|cbn in P'; congruence].
      right. left. exists b. apply in_app_iff. auto.
    + right. right. now rewrite Tr.
  - intros d. rewrite FW, Sg, upf_cases. intros Wd Sd. rewrite tokc_app.
    destruct (Nat.eqb_spec d e) as [->|N].
    + specialize (BAL e). lia.
    + destruct (IR d Wd Sd). specialize (BAL d). rewrite TC in * by auto. lia.
  - intros d. rewrite Sg, upf_cases, Tr. destruct (Nat.eqb_spec d e) as [->|N].
    + rewrite FD, FO, FI. destruct s; auto; discriminate.
    + rewrite FD, FO, FI. apply IH.
  - intros n d b H. rewrite Tr. apply in_app_iff in H as [H|H]; [|apply IT; now apply TT].
    apply out_toks_In in H as (A & B & ->). split; auto. intros Hp. apply Hpr; auto. now apply (wf_gen g WF).
Qed.

(** How stages may change while outputs are announced. *)
Definition later (st st' : state) : Prop :=
  trace st' = trace st /\ running st' = running st /\ numfail st' = numfail st /\
  (forall e, stages st' e = stages st e \/
             (stages st e = Waiting /\ (stages st' e = Ready \/ stages st' e = Pruned))).

Lemma later_refl : forall st, later st st.
Proof. intros. unfold later. auto. Qed.
Lemma later_trans : forall a b c, later a b -> later b c -> later a c.
Proof.
  intros a b c (A1 & A2 & A3 & A4) (B1 & B2 & B3 & B4). split; [congruence|]. split; [congruence|]. split; [congruence|].
  intros e. destruct (A4 e) as [A|[A [A'|A']]]; destruct (B4 e) as [B|[B B']]; try (rewrite A in * ); try congruence; auto;
  rewrite ?B, ?A'; auto; rewrite A' in B; try discriminate.
Qed.

Definition waiting (s : stage) : bool := match s with Waiting => true | _ => false end.
Definition nwait (st : state) : nat := length (filter (fun e => waiting (stages st e)) (seq 0 (nedges g))).

Lemma nwait_later : forall st st', later st st' -> nwait st' <= nwait st.
Proof.
  intros st st' (_ & _ & _ & L). apply filter_length_le. intros e _ H.
  destruct (L e) as [E|[E [E'|E']]]; [congruence| |]; rewrite E' in H; discriminate.
Qed.

Definition use_done (rec : nat -> state -> res state) (prune : bool) (e : nat) (st : state) : res state :=
  let s := es st e in
  if negb (f_work s) then Ok st
  else
    let may_prune := negb (if prune then f_out s else f_dirty s) in
    let np := if may_prune then (nprune s - 1)%Z else nprune s in
    let st := upd_es e (fun s => Est (f_work s) (f_cycle s) (f_in s) (f_out s) (nblock s) np) st in
    if may_prune && (np =? 0)%Z then
      bind (each rec (outs g e) (to_stage e Pruned st)) (fun st =>
      Ok (if f_dirty s && negb (phony g e)
          then set_ntotal (ntotal st - 1)%Z st else st))
    else
      let nb := (nblock s - 1)%Z in
      let st := upd_es e (fun s => Est (f_work s) (f_cycle s) (f_in s) (f_out s) nb (nprune s)) st in
      Ok (if (nb =? 0)%Z then queue g e st else st).

Lemma nodedone_S : forall f n b st,
  nodedone g (S f) n b st = each (use_done (fun m => nodedone g f m true) b) (uses g n) st.
Proof. reflexivity. Qed.

Lemma Inv_ntotal : forall st T k, Inv st T -> Inv (set_ntotal k st) T.
Proof.
  intros st T k [IS IST IU IW IY IR IH IT IQ]. destruct IS. split; auto.
  - split; auto.
  - now apply (Qinv_ext _ _ st).
Qed.
Lemma later_ntotal : forall st k, later st (set_ntotal k st).
Proof. intros. unfold later. auto. Qed.

Lemma each_nodedone : forall f pr,
  (forall m st T, Inv st (toks m (pr m) ++ T) -> nwait st < f ->
     exists st', nodedone g f m (pr m) st = Ok st' /\ Inv st' T /\ later st st') ->
  forall ms st T, Inv st (out_toks ms pr ++ T) -> nwait st < f ->
  exists st', each (fun m => nodedone g f m (pr m)) ms st = Ok st' /\ Inv st' T /\ later st st'.
Proof.
  intros f pr H ms. induction ms as [|m ms IH]; intros st T I L.
  - exists st. split; [reflexivity|]. split; [exact I|apply later_refl].
  - unfold out_toks in I. cbn [flat_map] in I. rewrite <- app_assoc in I.
    destruct (H m st _ I L) as (st1 & E1 & I1 & L1).
    destruct (IH st1 T I1) as (st2 & E2 & I2 & L2).
    { pose proof (nwait_later _ _ L1). lia. }
    exists st2. cbn [each]. rewrite E1. cbn [bind]. split; [exact E2|]. split; [exact I2|]. now apply (later_trans _ st1).
Qed.

(** Counting down one input of [e] that was announced. *)
Lemma Inv_count : forall st st1 T n e b may np,
  Inv st ((n, e, b) :: T) -> f_work (es st e) = true -> stages st e = Waiting ->
  may = negb (if b then f_out (es st e) else f_dirty (es st e)) ->
  np = (if may then nprune (es st e) - 1 else nprune (es st e))%Z ->
  may && (np =? 0)%Z = false ->
  es st1 e = Est true (f_cycle (es st e)) (f_in (es st e)) (f_out (es st e)) (nblock (es st e) - 1)%Z np ->
  (forall d, d <> e -> es st1 d = es st d) ->
  stages st1 = stages st -> trace st1 = trace st -> Qinv g o st1 ->
  Inv (if (nblock (es st e) - 1 =? 0)%Z then queue g e st1 else st1) T.
Proof.
  intros st st1 T n e b may np I We Se Hmay Hnp Hno Ee Ed Sg Tr Q.
  pose proof (I_tok _ _ I n e b (or_introl eq_refl)) as [Hn Hb].
  destruct (I_wait _ _ I e We Se) as (NB & POS & LE & EQ).
  rewrite tokc_cons in NB. cbn [t_edge fst snd] in NB. rewrite Nat.eqb_refl in NB.
  assert (FW : forall d, f_work (es st1 d) = f_work (es st d)).
  { intros d. destruct (Nat.eq_dec d e) as [->|N]; [rewrite Ee; auto|now rewrite Ed]. }
  assert (FO : forall d, f_out (es st1 d) = f_out (es st d)).
  { intros d. destruct (Nat.eq_dec d e) as [->|N]; [rewrite Ee; auto|now rewrite Ed]. }
  assert (FI : forall d, f_in (es st1 d) = f_in (es st d)).
  { intros d. destruct (Nat.eq_dec d e) as [->|N]; [rewrite Ee; auto|now rewrite Ed]. }
  assert (FD : forall d, f_dirty (es st1 d) = f_dirty (es st d)) by (intros; unfold f_dirty; now rewrite FO, FI).
  assert (Dy : (nblock (es st e) - 1 = 0)%Z -> f_dirty (es st e) = true).
  { intros Z. destruct (f_dirty (es st e)) eqn:F; auto. specialize (EQ eq_refl).
    assert (may = true). { rewrite Hmay. unfold f_dirty in F. apply orb_false_iff in F as [F1 F2]. destruct b; rewrite ?F2; reflexivity. }
    rewrite H in *. cbn [andb] in Hno. apply Z.eqb_neq in Hno. lia. }
  clear Hno.
  set (st2 := if (nblock (es st e) - 1 =? 0)%Z then queue g e st1 else st1).
  assert (E2 : es st2 = es st1) by (unfold st2; destruct (_ =? _)%Z; [apply queue_es|reflexivity]).
  assert (T2 : trace st2 = trace st) by (unfold st2; destruct (_ =? _)%Z; [now rewrite queue_trace|auto]).
  assert (Q2 : Qinv g o st2).
  { unfold st2. destruct (_ =? _)%Z; auto. apply Qinv_queue; auto; [apply (wf_depth g WF)|rewrite Sg, Se; discriminate|rewrite Sg, Se; discriminate]. }
  assert (S2 : stages st2 = upf (stages st) e (if (nblock (es st e) - 1 =? 0)%Z then Ready else Waiting) \/
               ((nblock (es st e) - 1 =? 0)%Z = false /\ stages st2 = stages st)).
  { unfold st2. destruct (_ =? _)%Z; [left; rewrite queue_stages, Sg; reflexivity|right; auto]. }
  assert (S2' : forall d, stages st2 d = if d =? e then if (nblock (es st e) - 1 =? 0)%Z then Ready else Waiting else stages st d).
  { intros d. destruct S2 as [->|[-> ->]]; [apply upf_cases|]. destruct (Nat.eqb_spec d e) as [->|]; auto. }
  clearbody st2. clear S2.
  assert (PD : forall m, pend st2 m = pend st m).
  { intros m. unfold pend. destruct (gen g m) as [d|]; [|reflexivity]. rewrite S2'.
    destruct (Nat.eqb_spec d e) as [->|]; [|reflexivity]. rewrite Se. now destruct (_ =? _)%Z. }
  assert (CN : forall d, cnt st2 d = cnt st d) by (intros d; unfold cnt; f_equal; apply filter_ext_In; auto).
  assert (TK : forall d, d <> e -> tokc ((n, e, b) :: T) d = tokc T d).
  { intros d N. rewrite tokc_cons. cbn [t_edge fst snd]. apply Nat.neq_sym in N. apply Nat.eqb_neq in N. now rewrite N. }
  destruct I as [IS IST IU IW IY IR IH IT IQ]. split; auto; rewrite ?E2.
  - destruct IS. split; intros d; rewrite E2, ?FW, ?FO, ?FD; auto.
  - intros d. rewrite FW, S2'. destruct (d =? e); auto. destruct (_ =? _)%Z; split; discriminate.
  - intros d. rewrite FW, S2'. destruct (Nat.eqb_spec d e) as [->|]; auto. congruence.
  - intros d. rewrite FW, S2', CN. destruct (Nat.eqb_spec d e) as [->|N].
    + destruct (Z.eqb_spec (nblock (es st e) - 1) 0) as [Z|Z]; [intros; discriminate|]. intros _ _. rewrite Ee. cbn.
      split; [lia|]. split; [lia|]. split.
      * intros F. specialize (LE F). rewrite Hnp. destruct may; lia.
      * intros F. unfold f_dirty in *. cbn in F. specialize (EQ F). rewrite Hnp.
        assert (M : may = true) by (rewrite Hmay; apply orb_false_iff in F as [F1 F2]; destruct b; rewrite ?F1, ?F2; reflexivity).
        rewrite M. lia.
    + intros Wd Sd. rewrite Ed by auto. destruct (IW d Wd Sd) as (A & B). rewrite TK in A; auto.
  - intros d. rewrite FW, S2', T2. destruct (Nat.eqb_spec d e) as [->|N].
    + destruct (Z.eqb_spec (nblock (es st e) - 1) 0) as [Z|Z]; [intros; discriminate|]. intros _ _. rewrite Ee. cbn.
      intros F1 F2 F3 m Hm. specialize (LE F1).
      assert (M : may = true) by (destruct may; auto; lia). rewrite M in Hnp.
      assert (Hbt : b = true).
      { destruct b; auto. rewrite M in Hmay. unfold f_dirty in Hmay. rewrite F2 in Hmay. discriminate. }
      destruct (IY e We Se F1 F2 ltac:(lia) m Hm) as [P|[[c [P|P]]|P]].
      * left. now rewrite PD.
      * right. right. injection P as -> ->. auto.
      * right. left. eauto.
      * right. now right.
    + intros Wd Sd. rewrite Ed by auto. intros F1 F2 F3 m Hm. rewrite PD.
      destruct (IY d Wd Sd F1 F2 F3 m Hm) as [P|[[c [P|P]]|P]]; auto.
      * injection P as -> -> ->. congruence.
      * right. left. eauto.
  - intros d. rewrite FW, S2', CN. intros Wd. destruct (Nat.eqb_spec d e) as [->|N].
    + destruct (Z.eqb_spec (nblock (es st e) - 1) 0) as [Z|Z]; [|congruence]. intros _. lia.
    + intros Sd. destruct (IR d Wd Sd) as (A & B). rewrite TK in B; auto.
  - intros d. rewrite S2', T2. destruct (Nat.eqb_spec d e) as [->|N].
    + destruct (Z.eqb_spec (nblock (es st e) - 1) 0) as [Z|Z]; [|exact Logic.I]. rewrite FD. auto.
    + rewrite FD, FO, FI. apply IH.
  - intros m d c H. rewrite T2. apply IT. now right.
Qed.

Lemma use_done_spec : forall f n e b st T,
  (forall m st T, Inv st (toks m true ++ T) -> nwait st < f ->
     exists st', nodedone g f m true st = Ok st' /\ Inv st' T /\ later st st') ->
  Inv st ((n, e, b) :: T) -> nwait st <= f ->
  exists st', use_done (fun m => nodedone g f m true) b e st = Ok st' /\ Inv st' T /\ later st st'.
Proof.
  intros f n e b st T HR I LW. unfold use_done.
  destruct (f_work (es st e)) eqn:We; cbn [negb].
  2: { exists st. split; [reflexivity|]. split; [|apply later_refl].
       destruct I as [IS IST IU IW IY IR IH IT IQ]. split; auto.
       - intros d Wd Sd. destruct (IW d Wd Sd) as (A & B). rewrite tokc_cons in A. cbn [t_edge fst snd] in A.
         destruct (Nat.eqb_spec e d) as [->|]; [congruence|]. auto.
       - intros d Wd Sd F1 F2 F3 m Hm. destruct (IY d Wd Sd F1 F2 F3 m Hm) as [P|[[c [P|P]]|P]]; eauto.
         injection P as -> -> ->. congruence.
       - intros d Wd Sd. destruct (IR d Wd Sd) as (A & B). rewrite tokc_cons in B. split; auto. lia.
       - intros m d c H. apply IT. now right. }
  pose proof (I_tok _ _ I n e b (or_introl eq_refl)) as [Hn Hb].
  assert (Se : stages st e = Waiting).
  { destruct (stages st e) eqn:E; auto; destruct (I_rest _ _ I e We) as [_ X]; try congruence;
    rewrite tokc_cons in X; cbn [t_edge fst snd] in X; rewrite Nat.eqb_refl in X; lia. }
  remember (negb (if b then f_out (es st e) else f_dirty (es st e))) as may eqn:Hmay.
  remember (if may then nprune (es st e) - 1 else nprune (es st e))%Z as np eqn:Hnp.
  set (sta := upd_es e _ st).
  assert (Qa : Qinv g o sta) by (apply (Qinv_ext _ _ st); auto; apply (I_queue _ _ I)).
  destruct (may && (np =? 0)%Z) eqn:MN.
  - apply andb_true_iff in MN as [M Z]. apply Z.eqb_eq in Z. rewrite M in Hmay, Hnp.
    assert (Fo : f_out (es st e) = false).
    { destruct b; [now destruct (f_out (es st e))|]. unfold f_dirty in Hmay. destruct (f_out (es st e)); auto.
      rewrite orb_true_r in Hmay. discriminate. }
    destruct (I_wait _ _ I e We Se) as (NB & POS & LE & EQ). specialize (LE Fo).
    rewrite tokc_cons in NB. cbn [t_edge fst snd] in NB. rewrite Nat.eqb_refl in NB.
    assert (U : f_in (es st e) = true -> forall m, In m (ins g e) -> unchanged g fs (trace st) m).
    { intros Fi m Hm. assert (Hbt : b = true) by (destruct b; auto; unfold f_dirty in Hmay; rewrite Fi in Hmay; discriminate).
      destruct (I_why _ _ I e We Se Fo Fi ltac:(lia) m Hm) as [P|[[c [P|P]]|P]]; auto.
      - assert (X : In m (filter (pend st) (ins g e))) by (apply filter_In; auto).
        unfold cnt in NB. destruct (filter (pend st) (ins g e)); [contradiction|cbn in NB; lia].
      - injection P as -> ->. auto.
      - assert (X : In (m, e, c) (filter (fun t => t_edge t =? e) T)) by (apply filter_In; split; auto; cbn; apply Nat.eqb_refl).
        unfold tokc in NB. destruct (filter (fun t => t_edge t =? e) T); [contradiction|cbn in NB; lia]. }
    set (st1 := to_stage e Pruned sta).
    assert (I' : Inv st1 (out_toks (outs g e) (fun _ => true) ++ T)).
    { apply (Inv_settle st _ ((n, e, b) :: T) _ e Pruned); auto; try discriminate.
      - intros d N. rewrite tokc_cons. cbn [t_edge fst snd]. apply Nat.neq_sym in N. apply Nat.eqb_neq in N. now rewrite N.
      - intros t [<-|H]; auto.
      - intros t H. now right.
      - now rewrite Se.
      - unfold cnt in *. lia.
      - lia.
      - intros d N. cbn. now apply upf_other.
      - cbn. now rewrite upf_same.
      - cbn. now rewrite upf_same.
      - cbn. now rewrite upf_same.
      - apply Qinv_stage; auto; try discriminate; cbn; rewrite Se; discriminate.
      - intros m Hm _. destruct (f_in (es st e)) eqn:Fi.
        + apply (unchanged_inputs _ _ _ _ e); auto.
          * now apply (wf_gen g WF).
          * rewrite <- (S_out _ (I_static _ _ I) e We). congruence.
        + apply (unchanged_clean _ _ _ _ e); [now apply (wf_gen g WF)|].
          rewrite <- (S_dirty _ (I_static _ _ I) e We). unfold f_dirty. rewrite Fi, Fo. discriminate. }
    assert (L1 : later st st1).
    { unfold later. cbn. split; auto. split; auto. split; auto. intros d. rewrite upf_cases.
      destruct (Nat.eqb_spec d e) as [->|]; auto. }
    assert (NW : nwait st1 < nwait st).
    { apply (filter_length_lt _ _ _ _ e).
      - intros d _ H. cbn in H. rewrite upf_cases in H. destruct (d =? e); [discriminate|exact H].
      - apply in_seq. split; [lia|]. cbn. now apply (S_edge _ (I_static _ _ I)).
      - cbn. now rewrite upf_same.
      - now rewrite Se. }
    destruct (each_nodedone f (fun _ => true) HR (outs g e) st1 T I' ltac:(lia)) as (st2 & E2 & I2 & L2).
    rewrite E2. cbn [bind].
    eexists. split; [reflexivity|]. split.
    + destruct (_ && _); [now apply Inv_ntotal|exact I2].
    + apply (later_trans _ st1); auto. destruct (_ && _); [|exact L2].
      apply (later_trans _ st2); auto. apply later_ntotal.
  - exists (if (nblock (es st e) - 1 =? 0)%Z then queue g e (upd_es e (fun s => Est (f_work s) (f_cycle s) (f_in s) (f_out s) (nblock (es st e) - 1)%Z (nprune s)) sta)
            else upd_es e (fun s => Est (f_work s) (f_cycle s) (f_in s) (f_out s) (nblock (es st e) - 1)%Z (nprune s)) sta).
    split; [reflexivity|]. split.
    + apply (Inv_count st _ _ n e b may np); auto.
      * cbn. rewrite !upf_same. cbn. now rewrite We.
      * intros d N. cbn. rewrite !upf_other; auto.
      * now apply (Qinv_ext _ _ sta).
    + unfold later. destruct (nblock (es st e) - 1 =? 0)%Z.
      * rewrite queue_trace, queue_running, queue_numfail, queue_stages. split; auto. split; auto. split; auto.
        intros d. cbn. rewrite upf_cases. destruct (Nat.eqb_spec d e) as [->|]; auto.
      * cbn. auto.
Qed.

Lemma nodedone_spec : forall f n b st T, Inv st (toks n b ++ T) -> nwait st < f ->
  exists st', nodedone g f n b st = Ok st' /\ Inv st' T /\ later st st'.
Proof.
  induction f as [|f IH]; intros n b st T I L; [lia|]. rewrite nodedone_S. unfold toks in I.
  revert st I L. induction (uses g n) as [|e us IHu]; intros st I L.
  - exists st. split; [reflexivity|]. split; [exact I|apply later_refl].
  - cbn [map app] in I.
    destruct (use_done_spec f n e b st _ (fun m => IH m true) I ltac:(lia)) as (st1 & E1 & I1 & L1).
    destruct (IHu st1 I1) as (st2 & E2 & I2 & L2).
    { pose proof (nwait_later _ _ L1). lia. }
    exists st2. cbn [each]. rewrite E1. cbn [bind]. split; [exact E2|]. split; [exact I2|]. now apply (later_trans _ st1).
Qed.

Lemma nwait_fuel : forall st, nwait st < node_fuel g.
Proof.
  intros st. unfold nwait, node_fuel. rewrite <- (seq_length (nedges g) 0) at 2.
  generalize (seq 0 (nedges g)). intros s. induction s as [|x s IHs]; cbn; [lia|]. destruct (waiting _); cbn; lia.
Qed.

Lemma announce : forall pr ms st T, Inv st (out_toks ms pr ++ T) ->
  exists st', each (fun m => nodedone g (node_fuel g) m (pr m)) ms st = Ok st' /\ Inv st' T /\ later st st'.
Proof.
  intros. apply each_nodedone; auto using nwait_fuel. intros m s T' I L. now apply nodedone_spec.
Qed.

(** ** From the plan to the first state *)
Lemma plan_Inv : forall d0 st, add_targets g fs targets (init d0) = Ok st -> Inv st [].
Proof.
  intros d0 st E. pose proof (plan_spec g fs o targets WF d0) as P. rewrite E in P.
  destruct P as (D & C & W & _).
  assert (CW : forall e, f_work (es st e) = true <-> complete st e).
  { intros e. unfold complete. rewrite C. tauto. }
  assert (K : forall e, f_work (es st e) = true -> edge_ok g fs st e) by (intros e H; apply (D_ok _ _ _ _ _ D); now apply CW).
  assert (NN : forall e, f_work (es st e) = true -> (0 <= nblock (es st e))%Z).
  { intros e H. rewrite (K_block _ _ _ _ (K e H)). lia. }
  assert (US : forall e, f_work (es st e) = true -> unsettled (stages st e) = f_dirty (es st e) || (nblock (es st e) >? 0)%Z).
  { intros e H. rewrite (K_stage _ _ _ _ (K e H)). specialize (NN e H).
    destruct (Z.eqb_spec (nblock (es st e)) 0) as [Z|Z].
    - rewrite Z. destruct (f_dirty (es st e)); reflexivity.
    - destruct (Z.gtb_spec (nblock (es st e)) 0); [|lia]. now rewrite orb_true_r. }
  assert (PE : forall e n, f_work (es st e) = true -> In n (ins g e) -> pend st n = pendf g st n).
  { intros e n We Hn. unfold pend, pendf. destruct (gen g n) as [d|] eqn:G; [|reflexivity].
    apply US. apply CW. now apply (K_ins _ _ _ _ (K e We) n). }
  assert (CN : forall e, f_work (es st e) = true -> nblock (es st e) = Z.of_nat (cnt st e)).
  { intros e We. rewrite (K_block _ _ _ _ (K e We)). unfold cnt. f_equal. f_equal. apply filter_ext_In.
    intros n Hn. symmetry. now apply (PE e). }
  assert (SG : forall e, f_work (es st e) = true -> stages st e = if (nblock (es st e) =? 0)%Z then if f_dirty (es st e) then Ready else UpToDate else Waiting).
  { intros e We. apply (K_stage _ _ _ _ (K e We)). }
  assert (UN : forall e, f_work (es st e) = false -> stages st e = Unused) by (intros e We; now apply (D_fresh _ _ _ _ _ D)).
  split.
  - split.
    + intros e. rewrite W. apply CW.
    + intros e We. apply (K_out _ _ _ _ (K e We)).
    + intros e We. apply (dirty_outdated g fs o targets st D). now apply CW.
    + intros e We. apply CW in We. apply W in We.
      destruct We as [n e Hn G|e d H [n [Hn G]]]; eapply (wf_edges g WF); eauto.
  - intros e We. rewrite SG by auto. destruct (_ =? _)%Z; [destruct (f_dirty _)|]; split; discriminate.
  - exact UN.
  - intros e We Se. rewrite SG in Se by auto. destruct (Z.eqb_spec (nblock (es st e)) 0) as [Z|Z]; [destruct (f_dirty _); discriminate|].
    split; [cbn; rewrite Nat.add_0_r; auto|]. split; [specialize (NN e We); lia|].
    split; intros F.
    + rewrite (K_prune _ _ _ _ (K e We)); auto. lia.
    + apply (K_prune _ _ _ _ (K e We)). unfold f_dirty in F. now apply orb_false_iff in F.
  - intros e We _ _ _ _ n Hn. destruct (pend st n) eqn:P; auto. right. right.
    unfold pend in P. destruct (gen g n) as [d|] eqn:G; [|now apply unchanged_source].
    assert (Wd : f_work (es st d) = true) by (apply CW; now apply (K_ins _ _ _ _ (K e We) n)).
    apply (unchanged_clean _ _ _ _ d); auto. rewrite <- (dirty_outdated g fs o targets st D d) by now apply CW.
    rewrite US in P by auto. apply orb_false_iff in P as [P _]. congruence.
  - intros e We Se. split; [|reflexivity]. rewrite SG in Se by auto.
    destruct (Z.eqb_spec (nblock (es st e)) 0) as [Z|Z]; [|congruence]. rewrite CN in Z by auto. lia.
  - intros e. destruct (f_work (es st e)) eqn:We; [|now rewrite UN].
    rewrite SG by auto. destruct (_ =? _)%Z; auto. destruct (f_dirty _) eqn:F; auto.
  - intros n e b [].
  - apply (D_queue _ _ _ _ _ D).
Qed.

(** ** Steps of the loop *)
Lemma Inv_emit : forall st T ev, Inv st T -> (forall e, ev <> StartFailed e) -> Inv (emit ev st) T.
Proof.
  intros st T ev [IS IST IU IW IY IR IH IT IQ] NE.
  assert (IC : incl (trace st) (trace st ++ [ev])) by (intros x Hx; apply in_app_iff; auto).
  split; auto.
  - destruct IS. split; auto.
  - intros e We Se F1 F2 F3 n Hn. destruct (IY e We Se F1 F2 F3 n Hn) as [P|[P|P]]; auto.
    right. right. cbn. now apply (unchanged_mono _ _ (trace st)).
  - intros e. specialize (IH e). cbn. destruct (stages st e); auto. destruct IH as [A B]. split; auto.
    intros F n Hn. apply (unchanged_mono _ _ (trace st)); auto.
  - intros n e b H. destruct (IT n e b H) as [A B]. split; auto. intros Hb. apply (unchanged_mono _ _ (trace st)); auto.
  - destruct IQ. split; auto. intros [L1 L2]. apply Q_exact. split; auto. intros e H. apply (L2 e). cbn. apply in_app_iff. auto.
Qed.

Lemma Inv_move : forall st st' e s, Inv st [] -> f_work (es st e) = true ->
  unsettled (stages st e) = true -> stages st e <> Waiting -> s = Running \/ s = Failed ->
  es st' = es st -> stages st' = upf (stages st) e s -> incl (trace st) (trace st') -> Qinv g o st' -> Inv st' [].
Proof.
  intros st st' e s I We Us NW Hs Es Sg IC Q.
  assert (Fd : f_dirty (es st e) = true).
  { pose proof (I_hot _ _ I e) as H. destruct (stages st e); auto; try discriminate; congruence. }
  assert (PD : forall n, pend st' n = pend st n).
  { intros n. unfold pend. destruct (gen g n) as [d|]; [|reflexivity]. rewrite Sg, upf_cases.
    destruct (Nat.eqb_spec d e) as [->|]; [|reflexivity]. rewrite Us. now destruct Hs as [->| ->]. }
  assert (CN : forall d, cnt st' d = cnt st d) by (intros d; unfold cnt; f_equal; apply filter_ext_In; auto).
  destruct I as [IS IST IU IW IY IR IH IT IQ]. split; rewrite ?Es; auto.
  - destruct IS. split; rewrite Es; auto.
  - intros d Wd. rewrite Sg, upf_cases. destruct (Nat.eqb_spec d e) as [->|]; auto.
    destruct Hs as [->| ->]; split; discriminate.
  - intros d Wd. rewrite Sg, upf_cases. destruct (Nat.eqb_spec d e) as [->|]; auto. congruence.
  - intros d Wd. rewrite Sg, upf_cases, CN. destruct (Nat.eqb_spec d e) as [->|]; auto.
    destruct Hs as [->| ->]; discriminate.
  - intros d Wd. rewrite Sg, upf_cases. destruct (Nat.eqb_spec d e) as [->|N]; [destruct Hs as [->| ->]; discriminate|].
    intros Sd F1 F2 F3 n Hn. rewrite PD. destruct (IY d Wd Sd F1 F2 F3 n Hn) as [P|[P|P]]; auto.
    right. right. now apply (unchanged_mono _ _ (trace st)).
  - intros d Wd. rewrite Sg, upf_cases, CN. destruct (Nat.eqb_spec d e) as [->|]; auto.
  - intros d. rewrite Sg, upf_cases. destruct (Nat.eqb_spec d e) as [->|].
    + destruct Hs as [->| ->]; auto.
    + specialize (IH d). destruct (stages st d); auto. destruct IH as [A B]. split; auto.
      intros F m Hm. apply (unchanged_mono _ _ (trace st)); auto.
  - intros n d b [].
Qed.

(** *** Work left *)
Definition weight (s : stage) : nat := match s with Waiting | Ready => 2 | Running => 1 | _ => 0 end.
Definition todo (st : state) : nat := list_sum (map (fun e => weight (stages st e)) (seq 0 (nedges g))).

Lemma sum_le : forall (f h : nat -> nat) l, (forall x, In x l -> f x <= h x) -> list_sum (map f l) <= list_sum (map h l).
Proof.
  intros f h l. induction l as [|x l IH]; intros H; cbn; [lia|].
  specialize (IH (fun y Hy => H y (or_intror Hy))). pose proof (H x (or_introl eq_refl)).
  change (fold_right Init.Nat.add 0 (map f l)) with (list_sum (map f l)).
  change (fold_right Init.Nat.add 0 (map h l)) with (list_sum (map h l)). lia.
Qed.
Lemma sum_lt : forall (f h : nat -> nat) l y, (forall x, In x l -> f x <= h x) -> In y l -> f y < h y ->
  list_sum (map f l) < list_sum (map h l).
Proof.
  intros f h l y. induction l as [|x l IH]; intros H Hy L; cbn; [easy|].
  change (fold_right Init.Nat.add 0 (map f l)) with (list_sum (map f l)).
  change (fold_right Init.Nat.add 0 (map h l)) with (list_sum (map h l)).
  assert (S : list_sum (map f l) <= list_sum (map h l)) by (apply sum_le; intros; apply H; now right).
  pose proof (H x (or_introl eq_refl)). destruct Hy as [->|Hy]; [lia|].
  specialize (IH (fun z Hz => H z (or_intror Hz)) Hy L). lia.
Qed.

Lemma todo_later : forall st st', later st st' -> todo st' <= todo st.
Proof.
  intros st st' (_ & _ & _ & L). apply sum_le. intros e _. destruct (L e) as [->|[-> [->| ->]]]; cbn; lia.
Qed.
Lemma todo_move : forall st st' e s, e < nedges g -> stages st' = upf (stages st) e s ->
  weight s < weight (stages st e) -> todo st' < todo st.
Proof.
  intros st st' e s L Sg W. apply (sum_lt _ _ _ e).
  - intros x _. rewrite Sg, upf_cases. destruct (Nat.eqb_spec x e) as [->|]; lia.
  - apply in_seq. lia.
  - now rewrite Sg, upf_same.
Qed.

(** *** The history *)
Record TI (st : state) : Prop := {
  T_start : forall e, In (Start e) (trace st) ->
    (stages st e = Running \/ stages st e = Finished \/ stages st e = Failed) /\ phony g e = false /\ dryrun o = false;
  T_ok : forall e u, In (Finish e true u) (trace st) -> stages st e = Finished;
  T_fail : forall e, failed (trace st) e <-> stages st e = Failed;
  T_done : forall e, stages st e = Finished -> phony g e = false -> dryrun o = false -> succeeded (trace st) e;
  T_nodup : NoDup (starts (trace st));
  T_order : forall tr1 e tr2, trace st = tr1 ++ Start e :: tr2 -> forall d, depends g e d ->
    ~ In (Start d) tr2 /\ (In (Start d) tr1 -> succeeded tr1 d) /\
    (outdated g fs d -> phony g d = false -> succeeded tr1 d \/ unneeded g fs tr1 d);
  T_stop : forall tr1 e tr2, trace st = tr1 ++ Start e :: tr2 -> failures tr1 < maxfail o;
  T_live : NoDup (running_in (trace st)) /\ forall e, In e (running_in (trace st)) <-> In e (running st);
  T_limit : forall tr1 tr2, trace st = tr1 ++ tr2 -> length (running_in tr1) <= maxjobs o /\
    forall p, (Z.of_nat (length (filter (in_pool g p) (running_in tr1))) <= depth g p)%Z;
  T_numfail : numfail st = failures (trace st)
}.

Lemma TI_later : forall st st', later st st' -> TI st -> TI st'.
Proof.
  intros st st' (E1 & E2 & E3 & L) []. 
  assert (K : forall e s, (s = Running \/ s = Finished \/ s = Failed) -> (stages st' e = s <-> stages st e = s)).
  { intros e s Hs. destruct (L e) as [->|[-> [->| ->]]]; [tauto| |];
    destruct Hs as [->|[->| ->]]; split; discriminate. }
  split; rewrite ?E1, ?E2, ?E3; auto.
  - intros e H. rewrite !K by auto. auto.
  - intros e u H. rewrite K by auto. eauto.
  - intros e. rewrite K by auto. auto.
  - intros e. rewrite K by auto. auto.
Qed.

Lemma starts_app : forall a b, starts (a ++ b) = starts a ++ starts b.
Proof. induction a as [|[e|e|e ok u] a IH]; intros b; cbn; rewrite ?IH; reflexivity. Qed.
Lemma In_starts : forall e tr, In e (starts tr) <-> In (Start e) tr.
Proof.
  intros e tr. induction tr as [|[x|x|x ok u] tr IH]; cbn; [tauto| | |]; rewrite ?IH; intuition congruence.
Qed.

Definition live_step (ev : event) (now : list nat) : list nat :=
  match ev with Start e => e :: now | StartFailed _ => now | Finish e _ _ => remove Nat.eq_dec e now end.
Lemma running_snoc : forall tr ev, running_in (tr ++ [ev]) = live_step ev (running_in tr).
Proof.
  intros tr ev. unfold running_in. generalize (@nil nat). induction tr as [|[x|x|x ok u] tr IH]; intros now; cbn; auto.
Qed.

Lemma prefix_snoc : forall A (l a b : list A) x, l ++ [x] = a ++ b -> (exists b', l = a ++ b') \/ (a = l ++ [x] /\ b = []).
Proof.
  intros A l a b x E. destruct b as [|y b] using rev_ind.
  - right. rewrite app_nil_r in E. auto.
  - left. rewrite app_assoc in E. apply app_inj_tail in E as [E _]. eauto.
Qed.

Lemma remove_NoDup : forall e (l : list nat), NoDup l -> NoDup (remove Nat.eq_dec e l).
Proof.
  intros e l H. induction H as [|x l Hx H IH]; cbn; [constructor|]. destruct (Nat.eq_dec e x); auto.
  constructor; auto. intros X. apply in_remove in X. tauto.
Qed.

Lemma limit_snoc : forall tr ev st, TI st -> trace st = tr ->
  length (running_in (tr ++ [ev])) <= maxjobs o ->
  (forall p, (Z.of_nat (length (filter (in_pool g p) (running_in (tr ++ [ev])))) <= depth g p)%Z) ->
  forall tr1 tr2, tr ++ [ev] = tr1 ++ tr2 -> length (running_in tr1) <= maxjobs o /\
    forall p, (Z.of_nat (length (filter (in_pool g p) (running_in tr1))) <= depth g p)%Z.
Proof.
  intros tr ev st T E A B tr1 tr2 H. apply prefix_snoc in H as [[b' H]|[-> ->]]; auto.
  apply (T_limit _ T tr1 b'). congruence.
Qed.

Lemma limit_ends : forall tr e ok u st, TI st -> trace st = tr ->
  forall tr1 tr2, tr ++ [Finish e ok u] = tr1 ++ tr2 -> length (running_in tr1) <= maxjobs o /\
    forall p, (Z.of_nat (length (filter (in_pool g p) (running_in tr1))) <= depth g p)%Z.
Proof.
  intros tr e ok u st T E. destruct (T_limit _ T (trace st) []) as [A B]; [now rewrite app_nil_r|].
  assert (X : forall f (l : list nat), length (filter f (remove Nat.eq_dec e l)) <= length (filter f l)).
  { intros f l. induction l as [|x l IH]; cbn; [lia|]. destruct (Nat.eq_dec e x); cbn; destruct (f x); cbn; lia. }
  apply (limit_snoc _ _ st); auto; rewrite running_snoc; cbn; subst tr.
  - specialize (X (fun _ => true) (running_in (trace st))).
    assert (Y : forall l : list nat, filter (fun _ => true) l = l) by (induction l; cbn; congruence).
    rewrite !Y in X. lia.
  - intros p. specialize (X (in_pool g p) (running_in (trace st))). specialize (B p). lia.
Qed.

Lemma NoDup_app_one : forall (l : list nat) e, NoDup l -> ~ In e l -> NoDup (l ++ [e]).
Proof.
  intros l e N H. apply NoDup_rev in N. rewrite <- (rev_involutive (l ++ [e])). apply NoDup_rev. rewrite rev_app_distr. cbn.
  constructor; auto. now rewrite <- in_rev.
Qed.

Lemma settled_deps : forall st T e d, Inv st T -> f_work (es st e) = true -> stages st e <> Waiting -> depends g e d ->
  f_work (es st d) = true /\ unsettled (stages st d) = false.
Proof.
  intros st T e d I We Se D.
  assert (one : forall a b, f_work (es st a) = true -> stages st a <> Waiting -> needs g a b ->
     f_work (es st b) = true /\ unsettled (stages st b) = false).
  { intros a b Wa Sa N. split; [now apply (Inv_needs st T a)|]. destruct N as (n & Hn & G).
    destruct (I_rest _ _ I a Wa Sa) as [C _]. unfold cnt in C.
    destruct (unsettled (stages st b)) eqn:U; auto.
    assert (X : In n (filter (pend st) (ins g a))) by (apply filter_In; split; auto; unfold pend; now rewrite G).
    destruct (filter (pend st) (ins g a)); [contradiction|discriminate]. }
  revert We Se. induction D as [a b N|a m b N D IH]; intros Wa Sa; [now apply (one a)|].
  destruct (one a m Wa Sa N) as [Wm Um]. apply IH; auto. intros E. rewrite E in Um. discriminate.
Qed.

Lemma Qinv_pop : forall st st' e rest s, Qinv g o st -> work st = e :: rest ->
  s <> Ready -> work st' = rest -> pnum st' = pnum st -> pwork st' = pwork st -> stages st' = upf (stages st) e s ->
  (s = Running /\ running st' = running st ++ [e] /\ phony g e = false \/ s <> Running /\ running st' = running st) ->
  (no_leak o st' -> no_leak o st /\ (s = Running \/ phony g e = true)) ->
  Qinv g o st'.
Proof.
  intros st st' e rest s [] Wk NR W' P' PW' Sg Rn NL.
  assert (Re : stages st e = Ready) by (apply Q_ready; left; rewrite Wk; now left).
  assert (Ne : ~ In e rest /\ NoDup rest) by (rewrite Wk in Q_nodup; inversion Q_nodup; auto). destruct Ne as [Ne Nr].
  assert (Np : forall p, ~ In e (pwork st p)).
  { intros p H. destruct (Q_pwork p e H) as [_ X]. apply X. rewrite Wk. now left. }
  assert (Nrun : ~ In e (running st)) by (intros H; apply Q_running in H; congruence).
  assert (CN : forall p, cntp g p (work st') + cntp g p (running st') =
     cntp g p (work st) + cntp g p (running st) - (if (match s with Running => true | _ => false end) then 0 else if pooled g p e then 1 else 0)).
  { intros p. rewrite W', Wk, cntp_cons. destruct Rn as [(-> & -> & _)|(NS & ->)].
    - rewrite cntp_app, cntp_cons. replace (cntp g p []) with 0 by reflexivity. lia.
    - destruct s; try congruence; destruct (pooled g p e); lia. }
  split; rewrite ?W', ?P', ?PW'; auto.
  - intros x. unfold queued. rewrite W', PW', Sg, upf_cases. destruct (Nat.eqb_spec x e) as [->|N].
    + split; [congruence|]. intros [H|[p H]]; [contradiction|now apply Np in H].
    + rewrite Q_ready. unfold queued. rewrite Wk. cbn. split; intros [H|H]; auto. destruct H; [congruence|auto].
  - intros p x H. destruct (Q_pwork p x H) as [A B]. split; auto. intros X. apply B. rewrite Wk. now right.
  - intros p. specialize (CN p). rewrite W' in CN. rewrite CN. specialize (Q_lower p). destruct s; destruct (pooled g p e); lia.
  - intros L p. specialize (CN p). rewrite W' in CN. rewrite CN. destruct (NL L) as [L0 HS]. rewrite (Q_exact L0 p).
    destruct HS as [->|Ph]; [lia|]. rewrite (pooled_none g e (or_intror Ph)). destruct s; lia.
  - intros x. rewrite Sg, upf_cases. destruct Rn as [(-> & -> & _)|(NS & ->)].
    + rewrite in_app_iff, Q_running. cbn. destruct (Nat.eqb_spec x e) as [->|N]; [tauto|]. intuition congruence.
    + destruct (Nat.eqb_spec x e) as [->|N]; [|apply Q_running]. split; [contradiction|congruence].
  - destruct Rn as [(_ & -> & _)|(NS & ->)]; auto. now apply NoDup_app_one.
  - intros x. destruct Rn as [(_ & -> & Ph)|(NS & ->)]; auto. intros [H|[<-|[]]]%in_app_iff; auto.
Qed.

Lemma In_remove_one : forall e l x, NoDup l -> (In x (remove_one e l) <-> In x l /\ x <> e).
Proof.
  intros e l x N. induction N as [|y l Hy N IH]; cbn [remove_one]; [cbn; tauto|].
  destruct (Nat.eqb_spec y e) as [->|D].
  - cbn. split; [intros H; split; auto; now intros ->|intros [[->|H] X]; [congruence|auto]].
  - cbn. rewrite IH. intuition congruence.
Qed.
Lemma NoDup_remove_one : forall e l, NoDup l -> NoDup (remove_one e l).
Proof.
  intros e l N. induction N as [|y l Hy N IH]; cbn [remove_one]; [constructor|].
  destruct (Nat.eqb_spec y e) as [->|D]; auto. constructor; auto. rewrite In_remove_one by auto. tauto.
Qed.
Lemma cntp_remove_one : forall p e l, In e l ->
  cntp g p l = (if pooled g p e then 1 else 0) + cntp g p (remove_one e l).
Proof.
  intros p e l. induction l as [|y l IH]; cbn [remove_one]; [easy|]. intros H. rewrite cntp_cons.
  destruct (Nat.eqb_spec y e) as [->|D]; [reflexivity|]. destruct H as [|H]; [congruence|]. rewrite cntp_cons, (IH H). lia.
Qed.

Definition handover (e : nat) (st : state) : state :=
  match pool g e with
  | Some p =>
    match pwork st p with
    | new :: rest => set_work (new :: work st) (set_pwork (upf (pwork st) p rest) st)
    | [] => set_pnum (upf (pnum st) p (pnum st p - 1)%Z) st
    end
  | None => st
  end.

Lemma Qinv_end : forall st st' e s, Qinv g o st -> In e (running st) -> s = Finished \/ s = Failed ->
  stages st' = upf (stages st) e s -> running st' = remove_one e (running st) ->
  work st' = work (handover e st) -> pwork st' = pwork (handover e st) -> pnum st' = pnum (handover e st) ->
  (no_leak o st' -> no_leak o st) -> Qinv g o st'.
Proof.
  intros st st' e s [] He Hs Sg Rn Wk PW PN NL.
  assert (Re : stages st e = Running) by now apply Q_running.
  assert (Ph : phony g e = false) by now apply Q_real.
  assert (Nq : ~ queued st e) by (intros H; apply Q_ready in H; congruence).
  assert (ST : forall x, stages st' x = Running <-> In x (running st')).
  { intros x. rewrite Sg, Rn, upf_cases, In_remove_one by auto. destruct (Nat.eqb_spec x e) as [->|N].
    - destruct Hs as [->| ->]; split; try discriminate; tauto.
    - rewrite Q_running. tauto. }
  assert (CR : forall p, cntp g p (running st) = (if pooled g p e then 1 else 0) + cntp g p (running st')).
  { intros p. rewrite Rn. now apply cntp_remove_one. }
  assert (SR : forall x, stages st' x = Ready <-> queued st x).
  { intros x. rewrite Sg, upf_cases. destruct (Nat.eqb_spec x e) as [->|N]; [|apply Q_ready].
    destruct Hs as [->| ->]; split; try discriminate; tauto. }
  assert (RR : (forall x, In x (running st') <-> stages st' x = Running) /\ NoDup (running st') /\
               (forall x, In x (running st') -> phony g x = false)).
  { split; [intros x; now rewrite ST|]. rewrite Rn. split; [now apply NoDup_remove_one|].
    intros x H. apply In_remove_one in H; auto. now apply Q_real. }
  destruct RR as (R1 & R2 & R3).
  unfold handover in Wk, PW, PN.
  destruct (pool g e) as [p|] eqn:Pl.
  - pose proof (pooled_some g p e Pl Ph) as PP.
    destruct (pwork st p) as [|new rest] eqn:Pw; cbn in Wk, PW, PN.
    + split; auto; rewrite ?Wk, ?PW, ?PN; auto.
      * intros x. rewrite SR. unfold queued. now rewrite Wk, PW.
      * intros q. rewrite upf_cases. specialize (Q_lower q). rewrite CR, PP in Q_lower.
        rewrite (Nat.eqb_sym p q) in Q_lower. destruct (Nat.eqb_spec q p) as [->|N]; lia.
      * intros q. rewrite upf_cases. specialize (Q_upper q). destruct (Nat.eqb_spec q p) as [->|N]; lia.
      * intros q H. rewrite upf_cases. destruct (Nat.eqb_spec q p) as [->|N]; [congruence|auto].
      * intros L q. rewrite upf_cases. pose proof (Q_exact (NL L) q) as X. rewrite CR, PP in X.
        rewrite (Nat.eqb_sym p q) in X. destruct (Nat.eqb_spec q p) as [E|N]; [rewrite E in *|]; lia.
    + assert (Pn : pooled g p new = true /\ ~ In new (work st)) by (apply Q_pwork; rewrite Pw; now left).
      destruct Pn as [Pn Wn]. destruct (pooled_pool _ _ _ Pn) as [Pln Phn].
      pose proof (pooled_some g p new Pln Phn) as PPn.
      assert (Nd : NoDup (new :: rest)) by (rewrite <- Pw; auto). inversion Nd as [|? ? Nn Nr]; subst.
      split; auto; rewrite ?Wk, ?PW, ?PN; auto.
      * intros x. rewrite SR. unfold queued. rewrite Wk, PW. split.
        -- intros [H|[q H]]; [left; now right|]. destruct (Nat.eq_dec q p) as [->|N].
           ++ rewrite Pw in H. destruct H as [->|H]; [left; now left|]. right. exists p. now rewrite upf_same.
           ++ right. exists q. now rewrite upf_other.
        -- intros [[->|H]|[q H]]; [right; exists p; rewrite Pw; now left|auto|]. right. exists q.
           rewrite upf_cases in H. destruct (Nat.eqb_spec q p) as [E|N]; auto. rewrite E, Pw. now right.
      * constructor; auto.
      * intros q. rewrite upf_cases. destruct (Nat.eqb_spec q p) as [->|N]; auto.
      * intros q x. rewrite upf_cases. intros H.
        assert (H' : In x (pwork st q)) by (destruct (Nat.eqb_spec q p) as [E|N]; [rewrite E, Pw; now right|auto]).
        destruct (Q_pwork q x H') as [A B]. split; auto. intros [<-|X]; [|auto].
        rewrite PPn in A. apply Nat.eqb_eq in A. subst q. rewrite Nat.eqb_refl in H. contradiction.
      * intros q. specialize (Q_lower q). rewrite CR, PP in Q_lower. rewrite cntp_cons, PPn. lia.
      * intros q H. apply Q_full. rewrite upf_cases in H. destruct (Nat.eqb_spec q p) as [E|N]; [rewrite E; congruence|auto].
      * intros L q. pose proof (Q_exact (NL L) q) as X. rewrite CR, PP in X. rewrite cntp_cons, PPn. lia.
  - assert (PP : forall q, pooled g q e = false) by (apply pooled_none; auto).
    split; auto; rewrite ?Wk, ?PW, ?PN; auto.
    + intros x. rewrite SR. unfold queued. now rewrite Wk, PW.
    + intros q. specialize (Q_lower q). rewrite CR, PP in Q_lower. lia.
    + intros L q. pose proof (Q_exact (NL L) q) as X. rewrite CR, PP in X. lia.
Qed.

(** *** The history, step by step *)
Lemma event_snoc : forall (tr : list event) ev tr1 x tr2, tr ++ [ev] = tr1 ++ x :: tr2 ->
  (tr1 = tr /\ x = ev /\ tr2 = []) \/ exists tr3, tr2 = tr3 ++ [ev] /\ tr = tr1 ++ x :: tr3.
Proof.
  intros tr ev tr1 x tr2 E. destruct tr2 as [|y l] using rev_ind.
  - left. apply app_inj_tail in E as [-> ->]. auto.
  - right. rewrite app_comm_cons, app_assoc in E. apply app_inj_tail in E as [E ->]. eauto.
Qed.

Lemma failed_snoc : forall tr ev x, failed (tr ++ [ev]) x <->
  failed tr x \/ (exists u, ev = Finish x false u) \/ ev = StartFailed x.
Proof.
  intros tr ev x. unfold failed. split.
  - intros [[u H]|H]; apply in_app_iff in H as [H|[H|[]]]; eauto 6.
  - intros [[[u H]|H]|[[u ->]| ->]]; [left; exists u|right|left; exists u|right]; apply in_app_iff; cbn; auto.
Qed.
Lemma succeeded_snoc : forall tr ev x, succeeded tr x -> succeeded (tr ++ [ev]) x.
Proof. intros tr ev x [u H]. exists u. apply in_app_iff. auto. Qed.

Lemma failures_snoc : forall tr ev, failures (tr ++ [ev]) = failures tr + if is_failure ev then 1 else 0.
Proof. intros. unfold failures. rewrite filter_app, app_length. cbn. destruct (is_failure ev); reflexivity. Qed.

Lemma T_order_other : forall st ev, TI st -> (forall e, ev <> Start e) ->
  forall tr1 e tr2, trace st ++ [ev] = tr1 ++ Start e :: tr2 -> forall d, depends g e d ->
    ~ In (Start d) tr2 /\ (In (Start d) tr1 -> succeeded tr1 d) /\
    (outdated g fs d -> phony g d = false -> succeeded tr1 d \/ unneeded g fs tr1 d).
Proof.
  intros st ev T NE tr1 e tr2 E d D. apply event_snoc in E as [(_ & X & _)|(tr3 & -> & E)]; [symmetry in X; now apply NE in X|].
  destruct (T_order _ T _ _ _ E d D) as [A B]. split; auto. intros [H|[H|[]]]%in_app_iff; auto. now apply NE in H.
Qed.
Lemma T_stop_other : forall st ev, TI st -> (forall e, ev <> Start e) ->
  forall tr1 e tr2, trace st ++ [ev] = tr1 ++ Start e :: tr2 -> failures tr1 < maxfail o.
Proof.
  intros st ev T NE tr1 e tr2 E. apply event_snoc in E as [(_ & X & _)|(tr3 & -> & E)]; [symmetry in X; now apply NE in X|].
  now apply (T_stop _ T _ _ _ E).
Qed.

Lemma same_length : forall a b : list nat, NoDup a -> NoDup b -> (forall x, In x a <-> In x b) -> Permutation a b.
Proof. intros. now apply NoDup_Permutation. Qed.

Lemma filter_pooled : forall p l, (forall x, In x l -> phony g x = false) -> length (filter (in_pool g p) l) = cntp g p l.
Proof.
  intros p l H. unfold cntp. f_equal. apply filter_ext_In. intros x Hx. unfold pooled. rewrite (H x Hx). now rewrite andb_true_r.
Qed.

Lemma filter_perm : forall f (a b : list nat), Permutation a b -> length (filter f a) = length (filter f b).
Proof.
  intros f a b P. induction P; cbn; auto; try congruence; try (destruct (f x); cbn; congruence).
  destruct (f y), (f x); reflexivity.
Qed.

Lemma stage_work : forall st T e, Inv st T -> stages st e <> Unused -> f_work (es st e) = true.
Proof. intros st T e I H. destruct (f_work (es st e)) eqn:W; auto. now apply (I_unused _ _ I) in W. Qed.

Lemma TI_start : forall st st' e, TI st -> Inv st [] -> stages st e = Ready -> phony g e = false -> dryrun o = false ->
  length (running st) < maxjobs o -> numfail st < maxfail o -> trace st' = trace st ++ [Start e] -> stages st' = upf (stages st) e Running ->
  running st' = running st ++ [e] -> numfail st' = numfail st -> Qinv g o st' -> TI st'.
Proof.
  intros st st' e T I Se Ph Dr Lm Mf Tr Sg Rn Nf Q.
  assert (NS : ~ In (Start e) (trace st)).
  { intros H. destruct (T_start _ T e H) as [[X|[X|X]] _]; congruence. }
  assert (We : f_work (es st e) = true) by (apply (stage_work st []); auto; congruence).
  assert (LV : NoDup (running_in (trace st')) /\ forall x, In x (running_in (trace st')) <-> In x (running st')).
  { destruct (T_live _ T) as [N L]. rewrite Tr, running_snoc, Rn. cbn. split.
    - constructor; auto. rewrite L. intros X. apply (Q_running _ _ _ (I_queue _ _ I)) in X. congruence.
    - intros x. rewrite in_app_iff, L. cbn. tauto. }
  split.
  - intros x. rewrite Tr, in_app_iff, Sg, upf_cases. intros [H|[H|[]]].
    + destruct (Nat.eqb_spec x e) as [->|N]; [contradiction|]. now apply (T_start _ T).
    + injection H as <-. rewrite Nat.eqb_refl. auto.
  - intros x u. rewrite Tr, in_app_iff, Sg, upf_cases. intros [H|[H|[]]]; [|discriminate].
    pose proof (T_ok _ T x u H). destruct (Nat.eqb_spec x e) as [->|N]; congruence.
  - intros x. rewrite Tr, Sg, failed_snoc, upf_cases, (T_fail _ T). destruct (Nat.eqb_spec x e) as [->|N].
    + split; [|discriminate]. intros [H|[[u H]|H]]; congruence.
    + split; auto. intros [H|[[u H]|H]]; congruence.
  - intros x. rewrite Sg, upf_cases, Tr. destruct (Nat.eqb_spec x e) as [->|N]; [discriminate|].
    intros H1 H2 H3. apply succeeded_snoc. now apply (T_done _ T).
  - rewrite Tr, starts_app. cbn. apply NoDup_app_one; [apply (T_nodup _ T)|]. now rewrite In_starts.
  - intros tr1 x tr2. rewrite Tr. intros E d D. apply event_snoc in E as [(-> & X & ->)|(tr3 & -> & E)].
    + injection X as ->. split; [easy|]. destruct (settled_deps st [] e d I We) as [Wd Ud]; auto; [congruence|].
      split.
      * intros H. destruct (T_start _ T d H) as ([X|[X|X]] & P & _); try (rewrite X in Ud; discriminate).
        now apply (T_done _ T).
      * intros O P. destruct (I_stage _ _ I d Wd) as [N1 N2]. pose proof (I_hot _ _ I d) as H.
        assert (Fd : f_dirty (es st d) = true) by now apply (S_dirty _ (I_static _ _ I)).
        destruct (stages st d) eqn:Sd; try discriminate; try congruence.
        -- left. now apply (T_done _ T).
        -- right. destruct H as [H1 H2]. split.
           ++ intros X. apply (S_out _ (I_static _ _ I)) in X; congruence.
           ++ apply H2. unfold f_dirty in Fd. rewrite H1 in Fd. now rewrite orb_false_r in Fd.
    + destruct (T_order _ T _ _ _ E d D) as [A B]. split; auto. intros [H|[H|[]]]%in_app_iff; auto.
      injection H as <-. assert (Hx : In (Start x) (trace st)) by (rewrite E; apply in_app_iff; right; now left).
      destruct (T_start _ T x Hx) as [X _].
      destruct (settled_deps st [] x e I) as [Wd Ud]; auto.
      * apply (stage_work st []); auto. destruct X as [X|[X|X]]; congruence.
      * destruct X as [X|[X|X]]; congruence.
      * rewrite Se in Ud. discriminate.
  - intros tr1 x tr2. rewrite Tr. intros E. apply event_snoc in E as [(-> & _)|(tr3 & -> & E)].
    + rewrite <- (T_numfail _ T). exact Mf.
    + apply (T_stop _ T _ _ _ E).
  - exact LV.
  - rewrite Tr. apply (limit_snoc _ _ st); auto.
    + rewrite <- Tr. destruct LV as [N L]. rewrite (Permutation_length (same_length _ _ N (Q_rnodup _ _ _ Q) L)).
      rewrite Rn, app_length. cbn. lia.
    + intros p. rewrite <- Tr. destruct LV as [N L].
      rewrite (filter_perm _ _ _ (same_length _ _ N (Q_rnodup _ _ _ Q) L)).
      rewrite filter_pooled by apply (Q_real _ _ _ Q).
      pose proof (Q_lower _ _ _ Q p). pose proof (Q_upper _ _ _ Q p). lia.
  - rewrite Tr, Nf, failures_snoc, (T_numfail _ T). cbn. lia.
Qed.

Lemma TI_fail_start : forall st st' e, TI st -> stages st e = Ready -> 
  trace st' = trace st ++ [StartFailed e] -> stages st' = upf (stages st) e Failed ->
  running st' = running st -> numfail st' = S (numfail st) -> TI st'.
Proof.
  intros st st' e T Se Tr Sg Rn Nf. split.
  - intros x. rewrite Tr, in_app_iff, Sg, upf_cases. intros [H|[H|[]]]; [|discriminate].
    pose proof (T_start _ T x H) as X. destruct (Nat.eqb_spec x e) as [->|N]; intuition.
  - intros x u. rewrite Tr, in_app_iff, Sg, upf_cases. intros [H|[H|[]]]; [|discriminate].
    pose proof (T_ok _ T x u H). destruct (Nat.eqb_spec x e) as [->|N]; congruence.
  - intros x. rewrite Tr, Sg, failed_snoc, upf_cases, (T_fail _ T). destruct (Nat.eqb_spec x e) as [->|N]; [tauto|].
    split; auto. intros [H|[[u H]|H]]; congruence.
  - intros x. rewrite Sg, upf_cases, Tr. destruct (Nat.eqb_spec x e) as [->|N]; [discriminate|].
    intros H1 H2 H3. apply succeeded_snoc. now apply (T_done _ T).
  - rewrite Tr, starts_app. cbn. rewrite app_nil_r. apply (T_nodup _ T).
  - rewrite Tr. now apply T_order_other.
  - rewrite Tr. now apply T_stop_other.
  - rewrite Tr, running_snoc, Rn. cbn. apply (T_live _ T).
  - rewrite Tr. apply (limit_snoc _ _ st); auto; rewrite running_snoc; cbn;
      destruct (T_limit _ T (trace st) []) as [A B]; auto; now rewrite app_nil_r.
  - rewrite Tr, Nf, failures_snoc, (T_numfail _ T). cbn. lia.
Qed.

Lemma TI_end : forall st st' e ok u, TI st -> stages st e = Running ->
  trace st' = trace st ++ [Finish e ok u] -> stages st' = upf (stages st) e (if ok then Finished else Failed) ->
  (forall x, In x (running st') <-> In x (running st) /\ x <> e) ->
  numfail st' = (if ok then numfail st else S (numfail st)) -> TI st'.
Proof.
  intros st st' e ok u T Se Tr Sg Rn Nf. split.
  - intros x. rewrite Tr, in_app_iff, Sg, upf_cases. intros [H|[H|[]]]; [|discriminate].
    pose proof (T_start _ T x H) as X. destruct (Nat.eqb_spec x e) as [->|N]; auto. destruct ok; intuition.
  - intros x u'. rewrite Tr, in_app_iff, Sg, upf_cases. intros [H|[H|[]]].
    + pose proof (T_ok _ T x u' H). destruct (Nat.eqb_spec x e) as [->|N]; congruence.
    + injection H as -> -> ->. now rewrite Nat.eqb_refl.
  - intros x. rewrite Tr, Sg, failed_snoc, upf_cases, (T_fail _ T). destruct (Nat.eqb_spec x e) as [->|N].
    + destruct ok.
      * split; [|discriminate]. intros [H|[[v H]|H]]; congruence.
      * split; [reflexivity|]. eauto.
    + split; auto. intros [H|[[v H]|H]]; congruence.
  - intros x. rewrite Sg, upf_cases, Tr. destruct (Nat.eqb_spec x e) as [->|N].
    + destruct ok; [|discriminate]. intros _ _ _. exists u. apply in_app_iff. right. now left.
    + intros H1 H2 H3. apply succeeded_snoc. now apply (T_done _ T).
  - rewrite Tr, starts_app. cbn. rewrite app_nil_r. apply (T_nodup _ T).
  - rewrite Tr. now apply T_order_other.
  - rewrite Tr. now apply T_stop_other.
  - destruct (T_live _ T) as [N L]. rewrite Tr, running_snoc. cbn. split; [now apply remove_NoDup|].
    intros x. rewrite Rn, <- L. split.
    + intros H. now apply in_remove in H.
    + intros [A B]. now apply in_in_remove.
  - rewrite Tr. now apply (limit_ends _ _ _ _ st).
  - rewrite Tr, failures_snoc. cbn. rewrite Nf, (T_numfail _ T). destruct ok; cbn; lia.
Qed.

Lemma TI_free : forall st st' e, TI st -> stages st e = Ready -> phony g e = true \/ dryrun o = true ->
  trace st' = trace st -> stages st' = upf (stages st) e Finished -> running st' = running st ->
  numfail st' = numfail st -> TI st'.
Proof.
  intros st st' e T Se PD Tr Sg Rn Nf. split; rewrite ?Tr, ?Rn, ?Nf; try apply T.
  - intros x H. rewrite Sg, upf_cases. pose proof (T_start _ T x H) as X. destruct (Nat.eqb_spec x e) as [->|N]; intuition.
  - intros x u H. rewrite Sg, upf_cases. pose proof (T_ok _ T x u H). destruct (Nat.eqb_spec x e) as [->|N]; congruence.
  - intros x. rewrite Sg, upf_cases, (T_fail _ T). destruct (Nat.eqb_spec x e) as [->|N]; [|tauto]. rewrite Se. split; discriminate.
  - intros x. rewrite Sg, upf_cases. destruct (Nat.eqb_spec x e) as [->|N]; [|apply (T_done _ T)].
    intros _ A B. destruct PD; congruence.
Qed.

(** *** One step *)
Lemma step_inv : forall st c, Inv st [] -> TI st ->
  match step g o st c with
  | Ok st' => Inv st' [] /\ TI st' /\ todo st' < todo st
  | Off => match c with
           | Take _ => ~ (length (running st) < maxjobs o /\ numfail st < maxfail o /\ work st <> [])
           | End_ e _ _ => ~ In e (running st)
           end
  | Fatal | Fuel => False
  end.
Proof.
  intros st c I T. pose proof (I_queue _ _ I) as Q. destruct c as [started|e ok same]; cbn [step].
  - destruct (Nat.ltb_spec (length (running st)) (maxjobs o)) as [Lm|]; cbn [andb]; [|lia].
    destruct (Nat.ltb_spec (numfail st) (maxfail o)) as [Mf|]; [|lia].
    destruct (work st) as [|e rest] eqn:Wk; [tauto|].
    assert (Se : stages st e = Ready) by (apply (Q_ready _ _ _ Q); left; rewrite Wk; now left).
    assert (We : f_work (es st e) = true) by (apply (stage_work st []); auto; congruence).
    assert (Le : e < nedges g) by now apply (S_edge _ (I_static _ _ I)).
    assert (Fd : f_dirty (es st e) = true) by (pose proof (I_hot _ _ I e) as H; now rewrite Se in H).
    destruct (phony g e || dryrun o) eqn:PD.
    + set (st1 := to_stage e Finished (set_work rest st)).
      assert (PD' : phony g e = true \/ dryrun o = true) by now apply orb_true_iff.
      assert (Q1 : Qinv g o st1).
      { apply (Qinv_pop st _ e rest Finished); auto; try discriminate.
        - right. split; [discriminate|reflexivity].
        - intros [L1 L2]. split; [now split|]. destruct PD'; [auto|congruence]. }
      assert (I1 : Inv st1 (out_toks (outs g e) (fun _ => false) ++ [])).
      { destruct (I_rest _ _ I e We) as [C1 C2]; [congruence|].
        apply (Inv_settle st _ [] [] e Finished); auto; try discriminate; try easy.
        now rewrite Se. }
      destruct (announce (fun _ => false) (outs g e) st1 [] I1) as (st' & E & I' & L).
      rewrite E. refine (conj I' (conj _ _)).
      * apply (TI_later _ _ L). now apply (TI_free st _ e).
      * pose proof (todo_later _ _ L). assert (todo st1 < todo st); [|lia].
        apply (todo_move _ _ e Finished); auto. rewrite Se. cbn. lia.
    + apply orb_false_iff in PD as [Ph Dr]. destruct started.
      * set (st' := emit _ _).
        assert (Q1 : Qinv g o st').
        { apply (Qinv_pop st _ e rest Running); auto; try discriminate.
          intros [L1 L2]. split; auto. split; auto. intros x H. apply (L2 x). apply in_app_iff. auto. }
        refine (conj _ (conj _ _)).
        -- apply (Inv_move st _ e Running); auto; try congruence; [now rewrite Se|intros x H; apply in_app_iff; auto].
        -- now apply (TI_start st _ e).
        -- apply (todo_move _ _ e Running); auto. rewrite Se. cbn. lia.
      * set (st' := emit _ _).
        assert (Q1 : Qinv g o st').
        { apply (Qinv_pop st _ e rest Failed); auto; try discriminate.
          - right. split; [discriminate|reflexivity].
          - intros [L1 L2]. exfalso. apply (L2 e). apply in_app_iff. right. now left. }
        refine (conj _ (conj _ _)).
        -- apply (Inv_move st _ e Failed); auto; try congruence; [now rewrite Se|intros x H; apply in_app_iff; auto].
        -- now apply (TI_fail_start st _ e).
        -- apply (todo_move _ _ e Failed); auto. rewrite Se. cbn. lia.
  - destruct (existsb (Nat.eqb e) (running st)) eqn:Ex; cycle 1.
    { intros H. assert (existsb (Nat.eqb e) (running st) = true); [|congruence].
      apply existsb_exists. exists e. split; auto. apply Nat.eqb_refl. }
    assert (He : In e (running st)).
    { apply existsb_exists in Ex as (x & Hx & E). apply Nat.eqb_eq in E. now subst. }
    assert (Se : stages st e = Running) by now apply (Q_running _ _ _ Q).
    assert (We : f_work (es st e) = true) by (apply (stage_work st []); auto; congruence).
    assert (Le : e < nedges g) by now apply (S_edge _ (I_static _ _ I)).
    assert (Fd : f_dirty (es st e) = true) by (pose proof (I_hot _ _ I e) as H; now rewrite Se in H).
    set (u := if ok && restat g e then filter same (outs g e) else []).
    set (st0 := emit (Finish e ok u) (set_running (remove_one e (running st)) st)).
    unfold jobdone. change (match pool g e with Some p => _ | None => _ end) with (handover e st0).
    assert (HO : work (handover e st0) = work (handover e st) /\ pwork (handover e st0) = pwork (handover e st) /\
                 pnum (handover e st0) = pnum (handover e st)).
    { unfold handover. cbn. destruct (pool g e) as [p|]; [destruct (pwork st p)|]; auto. }
    assert (HR : running (handover e st0) = remove_one e (running st) /\ stages (handover e st0) = stages st /\
                 trace (handover e st0) = trace st ++ [Finish e ok u] /\ es (handover e st0) = es st /\
                 numfail (handover e st0) = numfail st).
    { unfold handover. destruct (pool g e) as [p|]; [destruct (pwork st0 p)|]; auto. }
    destruct HO as (O1 & O2 & O3). destruct HR as (R1 & R2 & R3 & R4 & R5).
    remember (handover e st0) as sth eqn:Hh. clear Hh.
    assert (QQ : forall s st', s = Finished \/ s = Failed -> stages st' = upf (stages sth) e s -> running st' = running sth ->
       work st' = work sth -> pwork st' = pwork sth -> pnum st' = pnum sth -> trace st' = trace sth -> Qinv g o st').
    { intros s st' Hs A1 A2 A3 A4 A5 A6. apply (Qinv_end st _ e s); auto; try congruence.
      intros [L1 L2]. split; auto. intros x H. apply (L2 x). rewrite A6, R3. apply in_app_iff. auto. }
    assert (RM : forall x, In x (running sth) <-> In x (running st) /\ x <> e).
    { intros x. rewrite R1. apply In_remove_one. apply (Q_rnodup _ _ _ Q). }
    destruct ok; cbn [bind].
    + unfold edgedone. set (st1 := to_stage e Finished sth).
      assert (Q1 : Qinv g o st1) by (apply (QQ Finished); auto).
      assert (I0 : Inv (emit (Finish e true u) st) []) by (apply Inv_emit; [auto|discriminate]).
      assert (I1 : Inv st1 (out_toks (outs g e) (fun m => restat g e && same m) ++ [])).
      { destruct (I_rest _ _ I0 e We) as [C1 C2]; [cbn; congruence|].
        apply (Inv_settle (emit (Finish e true u) st) _ [] [] e Finished); auto; try discriminate; try easy; try (cbn; congruence).
        - cbn. now rewrite Se.
        - intros m Hm Hr. apply andb_true_iff in Hr as [Hr Hsm].
          apply (unchanged_restat _ _ _ _ e u); auto.
          + now apply (wf_gen _ WF).
          + cbn. apply in_app_iff. right. now left.
          + unfold u. rewrite Hr. cbn. now apply filter_In. }
      destruct (announce _ (outs g e) st1 [] I1) as (st' & E & I' & L).
      rewrite E. cbn [bind]. refine (conj I' (conj _ _)).
      * apply (TI_later _ _ L). apply (TI_end st _ e true u); auto; try (cbn; congruence).
      * pose proof (todo_later _ _ L). assert (todo st1 < todo st); [|lia].
        apply (todo_move _ _ e Finished); auto; [cbn; congruence|]. rewrite Se. cbn. lia.
    + set (st' := set_numfail _ _).
      refine (conj _ (conj _ _)).
      * apply (Inv_move st _ e Failed); auto; try congruence; try (cbn; congruence).
        -- now rewrite Se.
        -- cbn. rewrite R3. intros x H. apply in_app_iff. auto.
        -- apply (QQ Failed); auto.
      * apply (TI_end st _ e false u); auto; try (cbn; congruence).
      * apply (todo_move _ _ e Failed); auto; [cbn; congruence|]. rewrite Se. cbn. lia.
Qed.

Lemma steps_inv : forall cs st, Inv st [] -> TI st ->
  match steps g o st cs with
  | Ok st' => Inv st' [] /\ TI st' /\ todo st' + length cs <= todo st
  | Off => True
  | Fatal | Fuel => False
  end.
Proof.
  induction cs as [|c cs IH]; intros st I T; cbn [steps].
  - refine (conj I (conj T _)). cbn. lia.
  - pose proof (step_inv st c I T) as H. destruct (step g o st c) as [st1| | |]; cbn [bind]; auto.
    destruct H as (I1 & T1 & L1). specialize (IH st1 I1 T1). destruct (steps g o st1 cs); auto.
    destruct IH as (I2 & T2 & L2). refine (conj I2 (conj T2 _)). cbn [length]. lia.
Qed.

Lemma TI_plan : forall d0 st, add_targets g fs targets (init d0) = Ok st -> TI st.
Proof.
  intros d0 st E. pose proof (plan_spec g fs o targets WF d0) as P. rewrite E in P. destruct P as (D & C & W & _).
  destruct (D_none _ _ _ _ _ D) as (R & Tr & Nf).
  assert (ST : forall e, stages st e <> Failed /\ stages st e <> Finished).
  { intros e. destruct (f_work (es st e)) eqn:We.
    - assert (K : edge_ok g fs st e) by (apply (D_ok _ _ _ _ _ D); split; auto).
      rewrite (K_stage _ _ _ _ K). destruct (_ =? 0)%Z; [destruct (f_dirty _)|]; split; discriminate.
    - destruct (D_fresh _ _ _ _ _ D e We) as (_ & _ & _ & ->). split; discriminate. }
  split; rewrite ?Tr, ?R, ?Nf; try easy.
  - intros e. split; [intros [[u []]|[]]|]. intros H. now apply ST in H.
  - intros e H. now apply ST in H.
  - constructor.
  - intros [|? ?] ? ? H; discriminate.
  - intros [|? ?] ? ? H; discriminate.
  - split; [constructor|easy].
  - intros tr1 tr2 H. destruct tr1; [|discriminate]. cbn. split; [lia|]. intros p. pose proof (wf_depth _ WF p). lia.
Qed.

Lemma plan_rank : forall d0 st, add_targets g fs targets (init d0) = Ok st ->
  exists rank : nat -> nat, forall e d, wanted g targets e -> needs g e d -> rank d < rank e.
Proof.
  intros d0 st E. pose proof (plan_spec g fs o targets WF d0) as P. rewrite E in P. destruct P as (D & C & W & _).
  destruct (D_rank _ _ _ _ _ D) as [rank R]. exists rank. intros e d We (n & Hn & G). apply (R e n d); auto. now apply W.
Qed.

Lemma plan_total : forall d0 st e, add_targets g fs targets (init d0) = Ok st ->
  wanted g targets e -> outdated g fs e -> phony g e = false -> ntotal st <> 0%Z.
Proof.
  intros d0 st e E We O P. pose proof (plan_Inv _ _ E) as I. pose proof (plan_spec g fs o targets WF d0) as X.
  rewrite E in X. destruct X as (D & C & W & _). destruct (D_total _ _ _ _ _ D) as [_ T].
  apply W in We. specialize (T e We). rewrite (S_dirty _ (I_static _ _ I)) in T by apply We. specialize (T O P). lia.
Qed.

(** *** Whole builds *)
Lemma run_inv : forall d0 cs,
  match run g fs o d0 targets cs with
  | Ok st => exists st0, add_targets g fs targets (init d0) = Ok st0 /\ Inv st [] /\ TI st /\ todo st + length cs <= todo st0 /\
                         (ntotal st0 = 0%Z -> cs = [] /\ st = st0)
  | Off => True
  | Fatal => bad g fs targets
  | Fuel => False
  end.
Proof.
  intros d0 cs. unfold run. pose proof (plan_spec g fs o targets WF d0) as P.
  destruct (add_targets g fs targets (init d0)) as [st0| | |] eqn:E; cbn [bind]; try contradiction; auto.
  pose proof (plan_Inv _ _ E) as I0. pose proof (TI_plan _ _ E) as T0. unfold samu_build.
  destruct (Z.eqb_spec (ntotal st0) 0) as [Z|Z].
  - destruct cs; [|exact Logic.I]. exists st0. refine (conj eq_refl (conj I0 (conj T0 (conj _ _)))); [cbn; lia|auto].
  - pose proof (steps_inv cs st0 I0 T0) as H. destruct (steps g o st0 cs) as [st| | |]; auto; [|contradiction].
    destruct H as (I & T & L). exists st0. refine (conj eq_refl (conj I (conj T (conj L _)))). congruence.
Qed.

Lemma todo_le : forall st, todo st <= 2 * nedges g.
Proof.
  intros st. unfold todo. rewrite <- (seq_length (nedges g) 0) at 2. induction (seq 0 (nedges g)) as [|x l IH]; [cbn; lia|].
  cbn [map length]. change (list_sum (?a :: ?b)) with (a + list_sum b).
  destruct (stages st x); cbn [weight]; lia.
Qed.

Lemma steps_snoc : forall cs st c, steps g o st (cs ++ [c]) = bind (steps g o st cs) (fun st => step g o st c).
Proof.
  induction cs as [|x cs IH]; intros st c; cbn [steps app bind].
  - destruct (step g o st c); reflexivity.
  - destruct (step g o st x); cbn [bind]; auto.
Qed.

(** When nothing more can happen. *)
Lemma stuck_ends : forall st, (forall c, step g o st c = Off) -> Inv st [] -> TI st -> 0 < maxjobs o -> numfail st < maxfail o ->
  running st = [] /\ work st = [].
Proof.
  intros st H I T M F. assert (R : running st = []).
  { destruct (running st) as [|e l] eqn:R; auto. exfalso. specialize (H (End_ e false (fun _ => false))). cbn [step] in H.
    assert (X : existsb (Nat.eqb e) (running st) = true) by (apply existsb_exists; exists e; rewrite R; split; [now left|apply Nat.eqb_refl]).
    rewrite X in H. unfold jobdone in H. cbn in H. discriminate. }
  split; auto. destruct (work st) as [|e l] eqn:W; auto. exfalso.
  pose proof (step_inv st (Take true) I T) as S1. rewrite H in S1. apply S1. rewrite R, W. cbn. split; [auto|split; [auto|discriminate]].
Qed.

Lemma ended_settled : forall st, Inv st [] -> TI st -> running st = [] -> work st = [] -> no_leak o st ->
  (exists rank : nat -> nat, forall e d, wanted g targets e -> needs g e d -> rank d < rank e) ->
  forall e, wanted g targets e -> (forall d, depends g e d -> ~ failed (trace st) d) ->
  stages st e = UpToDate \/ stages st e = Finished \/ stages st e = Failed \/ stages st e = Pruned.
Proof.
  intros st I T R W NL [rank RK]. pose proof (I_queue _ _ I) as Q.
  assert (NR : forall x, stages st x <> Ready).
  { intros x H. apply (Q_ready _ _ _ Q) in H as [H|[p H]]; [rewrite W in H; contradiction|].
    assert (X : pwork st p <> []) by (intros X; rewrite X in H; contradiction).
    pose proof (Q_full _ _ _ Q p X) as F. rewrite (Q_exact _ _ _ Q NL p), R, W in F. change (cntp g p []) with 0 in F.
    pose proof (wf_depth _ WF p). lia. }
  assert (NN : forall x, stages st x <> Running).
  { intros x H. apply (Q_running _ _ _ Q) in H. rewrite R in H. contradiction. }
  intros e. remember (rank e) as k eqn:Hk. revert e Hk. induction k as [k IH] using lt_wf_ind. intros e -> We ND.
  assert (Fe : f_work (es st e) = true) by now apply (S_wanted _ (I_static _ _ I)).
  destruct (I_stage _ _ I e Fe) as [N1 N2]. specialize (NR e) as R1. specialize (NN e) as R2.
  destruct (stages st e) eqn:Se; auto; try congruence. exfalso.
  destruct (I_wait _ _ I e Fe Se) as (C & P & _).
  destruct (filter (pend st) (ins g e)) as [|n l] eqn:Fl.
  { assert (C0 : cnt st e = 0) by (unfold cnt; now rewrite Fl). rewrite C0 in C. change (tokc [] e) with 0 in C. lia. }
  assert (Hn : In n (filter (pend st) (ins g e))) by (rewrite Fl; now left).
  apply filter_In in Hn as [Hn Pn]. unfold pend in Pn. destruct (gen g n) as [d|] eqn:G; [|discriminate].
  assert (Nd : needs g e d) by (exists n; auto).
  assert (Wd : wanted g targets d) by now apply (wanted_needed _ _ e).
  assert (SF : stages st d <> Failed).
  { intros X. apply (T_fail _ T) in X. apply (ND d); auto. now apply dep_one. }
  destruct (IH (rank d) (RK e d We Nd) d eq_refl Wd) as [X|[X|[X|X]]]; try (rewrite X in Pn; discriminate); try congruence.
  intros y Dy. apply ND. now apply (dep_more _ _ d).
Qed.
End Sched.
