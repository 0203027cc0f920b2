(** Lemmas for P_Build: planning (buildadd) and execution (nodedone, jobdone,
    the scheduler loop). *)
From Coq Require Import List Bool Arith ZArith NArith Lia Permutation.
From Verif Require Import M_Build S_Build.
Import ListNotations.

Lemma upf_same : forall A (f : nat -> A) k v, upf f k v k = v.
Proof. intros. unfold upf. now rewrite Nat.eqb_refl. Qed.
Lemma upf_other : forall A (f : nat -> A) k v x, x <> k -> upf f k v x = f x.
Proof. intros. unfold upf. apply Nat.eqb_neq in H. now rewrite H. Qed.
Lemma upf_cases : forall A (f : nat -> A) k v x, upf f k v x = if x =? k then v else f x.
Proof. reflexivity. Qed.

(** ** Newest input and isdirty *)
Definition is_newest (fs : files) (l : list nat) (newest : option Z) : Prop :=
  match newest with
  | None => forall i, In i l -> mtime fs i = None
  | Some u => (exists i, In i l /\ mtime fs i = Some u) /\
              forall i v, In i l -> mtime fs i = Some v -> (v <= u)%Z
  end.

Lemma newest_snoc : forall fs l n newest, is_newest fs l newest ->
  is_newest fs (l ++ [n])
    (match mtime fs n with None => newest | Some t => if isnewer newest t then newest else Some t end).
Proof.
  intros fs l n [u|] H; cbn in H; destruct (mtime fs n) as [t|] eqn:E; cbn.
  - destruct H as [[i [Hi Hu]] Hm]. destruct (Z.gtb_spec u t).
    + split; [exists i; split; auto; apply in_app_iff; auto|].
      intros j v [Hj|[<-|[]]]%in_app_iff Hv; [eauto|]. rewrite E in Hv. injection Hv as <-. lia.
    + split; [exists n; split; auto; apply in_app_iff; cbn; auto|].
      intros j v [Hj|[<-|[]]]%in_app_iff Hv.
      * specialize (Hm _ _ Hj Hv). lia.
      * rewrite E in Hv. injection Hv as <-. lia.
  - destruct H as [[i [Hi Hu]] Hm]. split; [exists i; split; auto; apply in_app_iff; auto|].
    intros j v [Hj|[<-|[]]]%in_app_iff Hv; [eauto|congruence].
  - split; [exists n; split; auto; apply in_app_iff; cbn; auto|].
    intros j v [Hj|[<-|[]]]%in_app_iff Hv.
    + rewrite (H _ Hj) in Hv. discriminate.
    + rewrite E in Hv. injection Hv as <-. lia.
  - intros j [Hj|[<-|[]]]%in_app_iff; auto.
Qed.

Lemma newest_after : forall g fs e newest t, is_newest fs (normal_ins g e) newest ->
  (isnewer newest t = true <-> input_after g fs e t).
Proof.
  intros g fs e [u|] t H; cbn in *; unfold input_after.
  - destruct H as [[i [Hi Hu]] Hm]. rewrite Z.gtb_lt. split.
    + intros L. exists i, u. auto.
    + intros (j & v & Hj & Hv & L). specialize (Hm _ _ Hj Hv). lia.
  - split; [discriminate|]. intros (j & v & Hj & Hv & L). rewrite (H _ Hj) in Hv. discriminate.
Qed.

Lemma isdirty_spec : forall g fs e n newest, is_newest fs (normal_ins g e) newest ->
  (isdirty g fs n newest e = true <-> output_old g fs e n).
Proof.
  intros g fs e n newest H. unfold isdirty.
  assert (A : forall t, isnewer newest t = true <-> input_after g fs e t) by (intro; now apply newest_after).
  destruct (phony g e) eqn:P.
  - split.
    + destruct (ins g e) eqn:I; [|discriminate]. destruct (mtime fs n) eqn:M; [discriminate|].
      intros _. now apply old_phony.
    + intros [Q I M|Q M|t Q M N L|l Q L N|Q G L|Q G C]; try congruence. now rewrite I, M.
  - destruct (mtime fs n) as [t|] eqn:M.
    2: { split; auto. intros _. now apply old_missing. }
    assert (C : (cmdhash g e =? loghash fs n)%N = true <-> cmdhash g e = loghash fs n) by apply N.eqb_eq.
    destruct (isnewer newest t && (negb (restat g e) || match logmtime fs n with None => true | Some _ => false end)) eqn:X.
    + split; auto. intros _. apply andb_true_iff in X as [X Y]. apply A in X.
      apply (old_input _ _ _ _ t); auto.
      destruct (restat g e); [right|now left]. destruct (logmtime fs n); [discriminate|reflexivity].
    + destruct (logmtime fs n) as [l|] eqn:L.
      * assert (B : match newest with Some u => (l <? u)%Z | None => false end = isnewer newest l).
        { destruct newest; cbn; [|reflexivity]. now rewrite Z.gtb_ltb. }
        rewrite B. destruct (isnewer newest l) eqn:N.
        -- split; auto. intros _. apply A in N. now apply (old_recorded _ _ _ _ l).
        -- destruct (generator g e) eqn:G.
           ++ split; [discriminate|]. intros [Q I M'|Q M'|t' Q M' N' L'|l' Q L' N'|Q G' L'|Q G' C']; try congruence.
              ** rewrite M in M'. injection M' as <-. apply A in N'. rewrite N' in X.
                 destruct L' as [R|R]; [|congruence]. rewrite R in X. discriminate.
              ** rewrite L in L'. injection L' as <-. apply A in N'. congruence.
           ++ rewrite negb_true_iff. split.
              ** intros Y. apply old_command; auto. rewrite <- C. now rewrite Y.
              ** intros [Q I M'|Q M'|t' Q M' N' L'|l' Q L' N'|Q G' L'|Q G' C']; try congruence.
                 --- rewrite M in M'. injection M' as <-. apply A in N'. rewrite N' in X.
                     destruct L' as [R|R]; [|congruence]. rewrite R in X. discriminate.
                 --- rewrite L in L'. injection L' as <-. apply A in N'. congruence.
                 --- apply N.eqb_neq. auto.
      * destruct (generator g e) eqn:G; cbn.
        -- split; [discriminate|]. intros [Q I M'|Q M'|t' Q M' N' L'|l' Q L' N'|Q G' L'|Q G' C']; try congruence.
           rewrite M in M'. injection M' as <-. apply A in N'. rewrite N', orb_true_r in X. discriminate.
        -- split; auto. intros _. now apply old_unrecorded.
Qed.

(** ** The queues *)
Definition pooled (g : graph) (p e : nat) : bool := in_pool g p e && negb (phony g e).
Definition cntp (g : graph) (p : nat) (l : list nat) : nat := length (filter (pooled g p) l).
Arguments cntp : simpl never.
Arguments upf : simpl never.
Definition queued (st : state) (e : nat) : Prop := In e (work st) \/ exists p, In e (pwork st p).
Definition no_leak (o : opts) (st : state) : Prop := dryrun o = false /\ forall e, ~ In (StartFailed e) (trace st).

Record Qinv (g : graph) (o : opts) (st : state) : Prop := {
  Q_ready : forall e, stages st e = Ready <-> queued st e;
  Q_nodup : NoDup (work st);
  Q_pnodup : forall p, NoDup (pwork st p);
  Q_pwork : forall p e, In e (pwork st p) -> pooled g p e = true /\ ~ In e (work st);
  Q_lower : forall p, (Z.of_nat (cntp g p (work st) + cntp g p (running st)) <= pnum st p)%Z;
  Q_upper : forall p, (pnum st p <= depth g p)%Z;
  Q_full : forall p, pwork st p <> [] -> pnum st p = depth g p;
  Q_exact : no_leak o st -> forall p, pnum st p = Z.of_nat (cntp g p (work st) + cntp g p (running st));
  Q_running : forall e, In e (running st) <-> stages st e = Running;
  Q_rnodup : NoDup (running st);
  Q_real : forall e, In e (running st) -> phony g e = false
}.

Lemma cntp_cons : forall g p e l, cntp g p (e :: l) = (if pooled g p e then 1 else 0) + cntp g p l.
Proof. intros. unfold cntp. cbn. now destruct (pooled g p e). Qed.
Lemma cntp_app : forall g p l l', cntp g p (l ++ l') = cntp g p l + cntp g p l'.
Proof. intros. unfold cntp. now rewrite filter_app, app_length. Qed.

Lemma pooled_pool : forall g p e, pooled g p e = true -> pool g e = Some p /\ phony g e = false.
Proof.
  intros g p e H. apply andb_true_iff in H as [H P]. apply negb_true_iff in P. split; auto.
  unfold in_pool in H. destruct (pool g e); [|discriminate]. apply Nat.eqb_eq in H. now subst.
Qed.
Lemma pooled_some : forall g p e, pool g e = Some p -> phony g e = false ->
  forall q, pooled g q e = (p =? q).
Proof. intros g p e H P q. unfold pooled, in_pool. rewrite H, P. cbn. apply andb_true_r. Qed.
Lemma pooled_none : forall g e, pool g e = None \/ phony g e = true -> forall q, pooled g q e = false.
Proof. intros g e [H|H] q; unfold pooled, in_pool; rewrite H; cbn; auto. apply andb_false_r. Qed.

(** Everything but the queue fields may change freely. *)
Lemma Qinv_ext : forall g o st st',
  stages st' = stages st -> work st' = work st -> pnum st' = pnum st -> pwork st' = pwork st ->
  running st' = running st -> trace st' = trace st -> Qinv g o st -> Qinv g o st'.
Proof.
  intros g o st st' E1 E2 E3 E4 E5 E6 [].
  split; unfold queued, no_leak in *; rewrite ?E1, ?E2, ?E3, ?E4, ?E5, ?E6; auto.
Qed.

Lemma Qinv_stage : forall g o st e s, Qinv g o st ->
  stages st e <> Ready -> stages st e <> Running -> s <> Ready -> s <> Running ->
  Qinv g o (to_stage e s st).
Proof.
  intros g o st e s [] A B C D. split; cbn; auto.
  - intros x. unfold queued. cbn. rewrite upf_cases. destruct (Nat.eqb_spec x e) as [->|N]; [|apply Q_ready0].
    split; [tauto|]. intros H. apply Q_ready0 in H. contradiction.
  - intros x. rewrite upf_cases. destruct (Nat.eqb_spec x e) as [->|N]; [|apply Q_running0].
    split; [|tauto]. intros H. apply Q_running0 in H. contradiction.
Qed.

Lemma Qinv_queue : forall g o st e, Qinv g o st -> (forall p, 0 < depth g p)%Z ->
  stages st e <> Ready -> stages st e <> Running -> Qinv g o (queue g e st).
Proof.
  intros g o st e [] W A B.
  assert (NQ : ~ queued st e) by (intros H; apply Q_ready0 in H; contradiction).
  assert (NW : ~ In e (work st)) by (intros H; apply NQ; now left).
  assert (NP : forall p, ~ In e (pwork st p)) by (intros p H; apply NQ; right; eauto).
  assert (front : forall n, (n = pnum st \/ exists p, pool g e = Some p /\ phony g e = false /\ pnum st p <> depth g p /\ n = upf (pnum st) p (pnum st p + 1)%Z) ->
     (n = pnum st -> pool g e = None \/ phony g e = true) ->
     Qinv g o (set_work (e :: work st) (set_pnum n (to_stage e Ready st)))).
  { intros n Hn Hno.
    assert (En : forall p, n p = (pnum st p + if pooled g p e then 1 else 0)%Z).
    { intros p. destruct Hn as [->|(q & Hq & Ph & Nd & ->)].
      - rewrite pooled_none; auto. lia.
      - rewrite (pooled_some _ _ _ Hq Ph). rewrite upf_cases. rewrite Nat.eqb_sym.
        destruct (Nat.eqb_spec q p) as [->|]; lia. }
    split; cbn; auto.
    - intros x. unfold queued. cbn. rewrite upf_cases. destruct (Nat.eqb_spec x e) as [->|N].
      + split; auto.
      + rewrite Q_ready0. unfold queued. split; intros [H|H]; auto. destruct H; auto. congruence.
    - constructor; auto.
    - intros p x H. destruct (Q_pwork0 p x H) as [H1 H2]. split; auto.
      intros [->|H3]; [|tauto]. now apply (NP p).
    - intros p. rewrite cntp_cons, En. specialize (Q_lower0 p). destruct (pooled g p e); lia.
    - intros p. rewrite En. destruct (pooled g p e) eqn:Pe; [|specialize (Q_upper0 p); lia].
      destruct Hn as [->|(q & Hq & Ph & Nd & ->)].
      + rewrite pooled_none in Pe; [discriminate|auto].
      + apply pooled_pool in Pe as [Pe _]. rewrite Pe in Hq. injection Hq as ->.
        specialize (Q_upper0 q). lia.
    - intros p H. rewrite En. destruct (pooled g p e) eqn:Pe.
      + destruct Hn as [->|(q & Hq & Ph & Nd & ->)].
        * rewrite pooled_none in Pe; [discriminate|auto].
        * apply pooled_pool in Pe as [Pe _]. rewrite Pe in Hq. injection Hq as ->.
          exfalso. apply Nd. auto.
      + rewrite Q_full0; auto. lia.
    - intros L p. rewrite cntp_cons, En. rewrite Q_exact0 by exact L. destruct (pooled g p e); lia.
    - intros x. rewrite upf_cases. destruct (Nat.eqb_spec x e) as [->|N]; [|apply Q_running0].
      split; [|discriminate]. intros H. apply Q_running0 in H. contradiction. }
  unfold queue. cbn.
  destruct (pool g e) as [p|] eqn:Po.
  - destruct (phony g e) eqn:Ph.
    + apply (front (pnum st)); auto.
    + destruct (Z.eqb_spec (pnum st p) (depth g p)) as [F|F].
      * split; cbn; auto.
        -- intros x. unfold queued. cbn. rewrite upf_cases. destruct (Nat.eqb_spec x e) as [->|N].
           ++ split; auto. intros _. right. exists p. rewrite upf_same. now left.
           ++ rewrite Q_ready0. unfold queued. split; intros [H|[q H]]; auto.
              ** right. exists q. rewrite upf_cases. destruct (Nat.eqb_spec q p) as [->|]; auto. now right.
              ** rewrite upf_cases in H. destruct (q =? p); [|eauto].
                 destruct H as [H|H]; [congruence|eauto].
        -- intros q. rewrite upf_cases. destruct (Nat.eqb_spec q p) as [->|]; auto. constructor; auto.
        -- intros q x. rewrite upf_cases. destruct (Nat.eqb_spec q p) as [->|]; auto.
           intros [<-|H]; auto. split; auto. rewrite (pooled_some _ _ _ Po Ph). apply Nat.eqb_refl.
        -- intros q. rewrite upf_cases. destruct (Nat.eqb_spec q p) as [->|]; auto.
        -- intros x. rewrite upf_cases. destruct (Nat.eqb_spec x e) as [->|N]; [|apply Q_running0].
           split; [|discriminate]. intros H. apply Q_running0 in H. contradiction.
      * apply front.
        -- right. exists p. auto.
        -- intros H. exfalso. assert (X : upf (pnum st) p (pnum st p + 1)%Z p = pnum st p) by now rewrite H.
           rewrite upf_same in X. lia.
  - apply (front (pnum st)); auto.
Qed.

Lemma queue_es : forall g e st, es (queue g e st) = es st.
Proof. intros. unfold queue. destruct (pool g e) as [p|]; [destruct (phony g e); [|destruct (_ =? _)%Z]|]; reflexivity. Qed.
Lemma queue_dirty : forall g e st, dirty (queue g e st) = dirty st.
Proof. intros. unfold queue. destruct (pool g e) as [p|]; [destruct (phony g e); [|destruct (_ =? _)%Z]|]; reflexivity. Qed.
Lemma queue_stages : forall g e st, stages (queue g e st) = upf (stages st) e Ready.
Proof. intros. unfold queue. destruct (pool g e) as [p|]; [destruct (phony g e); [|destruct (_ =? _)%Z]|]; reflexivity. Qed.
Lemma queue_ntotal : forall g e st, ntotal (queue g e st) = ntotal st.
Proof. intros. unfold queue. destruct (pool g e) as [p|]; [destruct (phony g e); [|destruct (_ =? _)%Z]|]; reflexivity. Qed.
Lemma queue_running : forall g e st, running (queue g e st) = running st.
Proof. intros. unfold queue. destruct (pool g e) as [p|]; [destruct (phony g e); [|destruct (_ =? _)%Z]|]; reflexivity. Qed.
Lemma queue_numfail : forall g e st, numfail (queue g e st) = numfail st.
Proof. intros. unfold queue. destruct (pool g e) as [p|]; [destruct (phony g e); [|destruct (_ =? _)%Z]|]; reflexivity. Qed.
Lemma queue_trace : forall g e st, trace (queue g e st) = trace st.
Proof. intros. unfold queue. destruct (pool g e) as [p|]; [destruct (phony g e); [|destruct (_ =? _)%Z]|]; reflexivity. Qed.

(** ** Planning *)
Definition same_rest (st st' : state) : Prop :=
  work st' = work st /\ pnum st' = pnum st /\ pwork st' = pwork st /\ ntotal st' = ntotal st /\
  running st' = running st /\ numfail st' = numfail st /\ trace st' = trace st.

Lemma mark_all_spec : forall v ns st,
  es (mark_all v ns st) = es st /\ stages (mark_all v ns st) = stages st /\ same_rest st (mark_all v ns st) /\
  forall n, dirty (mark_all v ns st) n = if existsb (Nat.eqb n) ns then v else dirty st n.
Proof.
  intros v ns. induction ns as [|m ns IH]; intros st; cbn.
  - unfold same_rest. auto 10.
  - destruct (IH (set_dirty (upf (dirty st) m v) st)) as (A & B & C & D).
    unfold mark_all in *. rewrite A, B. split; [reflexivity|]. split; [reflexivity|].
    split; [exact C|]. intros n. rewrite D. cbn. rewrite upf_cases.
    destruct (n =? m); cbn; [|reflexivity]. now destruct (existsb _ ns).
Qed.

Section Plan.
Variables (g : graph) (fs : files) (o : opts) (targets : list nat).
Hypothesis WF : well_formed g.

Definition complete (st : state) (e : nat) : Prop := f_work (es st e) = true /\ f_cycle (es st e) = false.
Definition pendf (st : state) (n : nat) : bool :=
  match gen g n with
  | Some d => f_dirty (es st d) || (nblock (es st d) >? 0)%Z
  | None => false
  end.

Record edge_ok (st : state) (e : nat) : Prop := {
  K_ins : forall n d, In n (ins g e) -> gen g n = Some d -> complete st d;
  K_src : forall n, In n (ins g e) -> gen g n = None -> mtime fs n <> None;
  K_block : nblock (es st e) = Z.of_nat (length (filter (pendf st) (ins g e)));
  K_in : f_in (es st e) = true <-> exists n d, In n (normal_ins g e) /\ gen g n = Some d /\ f_dirty (es st d) = true;
  K_out : f_out (es st e) = true <-> self_old g fs e;
  K_prune : f_out (es st e) = false -> nprune (es st e) = nblock (es st e);
  K_dirty : forall n, In n (outs g e) -> dirty st n = f_dirty (es st e);
  K_stage : stages st e = if (nblock (es st e) =? 0)%Z then if f_dirty (es st e) then Ready else UpToDate else Waiting
}.

Definition same (st st' : state) (d : nat) : Prop :=
  es st' d = es st d /\ stages st' d = stages st d /\ forall n, In n (outs g d) -> dirty st' n = dirty st n.

Record Dinv (st : state) : Prop := {
  D_ok : forall e, complete st e -> edge_ok st e;
  D_fresh : forall e, f_work (es st e) = false ->
     f_cycle (es st e) = false /\ f_in (es st e) = false /\ f_out (es st e) = false /\ stages st e = Unused;
  D_adding : forall e, f_cycle (es st e) = true -> f_work (es st e) = true /\ stages st e = Adding;
  D_rank : exists rank : nat -> nat, forall e n d, complete st e -> In n (ins g e) -> gen g n = Some d -> rank d < rank e;
  D_queue : Qinv g o st;
  D_none : running st = [] /\ trace st = [] /\ numfail st = 0;
  D_total : (0 <= ntotal st)%Z /\ forall e, complete st e -> f_dirty (es st e) = true -> phony g e = false -> (0 < ntotal st)%Z;
  D_wanted : forall e, f_work (es st e) = true -> wanted g targets e
}.

Lemma filter_ext_In : forall A (p q : A -> bool) l, (forall x, In x l -> p x = q x) -> filter p l = filter q l.
Proof.
  intros A p q l. induction l as [|x l IH]; intros H; cbn; [reflexivity|].
  rewrite (H x) by now left. rewrite IH; [reflexivity|]. intros y Hy. apply H. now right.
Qed.

Lemma firstn_In : forall A k (l : list A) x, In x (firstn k l) -> In x l.
Proof. intros A k l x H. rewrite <- (firstn_skipn k l). apply in_app_iff. now left. Qed.

Lemma edge_ok_same : forall st st' e, complete st e -> edge_ok st e ->
  (forall d, complete st d -> same st st' d) -> edge_ok st' e.
Proof.
  intros st st' e C [] S. destruct (S e C) as (Ee & Es & Ed). split; rewrite ?Ee, ?Es; auto.
  - intros n d Hn Hd. destruct (S d (K_ins0 n d Hn Hd)) as (E & _). unfold complete. rewrite E.
    now apply (K_ins0 n).
  - rewrite K_block0. f_equal. f_equal. apply filter_ext_In. intros n Hn. unfold pendf.
    destruct (gen g n) as [d|] eqn:G; [|reflexivity]. destruct (S d (K_ins0 n d Hn G)) as (-> & _). reflexivity.
  - rewrite K_in0. split; intros (n & d & Hn & Hd & X); exists n, d; split; auto; split; auto;
    destruct (S d (K_ins0 n d (firstn_In _ _ _ _ Hn) Hd)) as (E & _); [now rewrite E|now rewrite E in X].
  - intros n Hn. rewrite Ed; auto.
Qed.

(** The edge being planned may be changed as long as it stays marked. *)
Lemma Dinv_upd : forall st e F, Dinv st -> f_cycle (es st e) = true ->
  (forall s, f_work (F s) = f_work s /\ f_cycle (F s) = f_cycle s) ->
  Dinv (upd_es e F st).
Proof.
  intros st e F D C HF. destruct D.
  destruct (D_adding0 e C) as [W _].
  assert (HC : forall d, complete (upd_es e F st) d <-> complete st d).
  { intros d. unfold complete. cbn. rewrite upf_cases. destruct (Nat.eqb_spec d e) as [->|]; [|tauto].
    destruct (HF (es st e)) as [-> ->]. tauto. }
  assert (NE : forall d, complete st d -> d <> e) by (intros d [_ H] ->; congruence).
  split.
  - intros d H. apply HC in H. apply (edge_ok_same st); auto.
    intros x Hx. split; [|split]; auto. cbn. apply upf_other. auto.
  - intros d. cbn. rewrite upf_cases. destruct (Nat.eqb_spec d e) as [->|]; [|apply D_fresh0].
    destruct (HF (es st e)) as [-> _]. congruence.
  - intros d. cbn. rewrite upf_cases. destruct (Nat.eqb_spec d e) as [->|]; [|apply D_adding0].
    destruct (HF (es st e)) as [-> ->]. auto.
  - destruct D_rank0 as [rank R]. exists rank. intros x n d Hx. apply R. now apply HC.
  - now apply (Qinv_ext _ _ st).
  - exact D_none0.
  - destruct D_total0 as [A B]. split; auto. intros d Hd. apply HC in Hd. cbn. rewrite upf_other by auto. exact (B d Hd).
  - intros d. cbn. rewrite upf_cases. destruct (Nat.eqb_spec d e) as [->|]; [|apply D_wanted0].
    destruct (HF (es st e)) as [-> _]. apply D_wanted0.
Qed.

(** Fields other than flags of nodes without a planned generator. *)
Lemma Dinv_same : forall st st', Dinv st ->
  (forall d, f_work (es st d) = true -> same st st' d) ->
  es st' = es st -> stages st' = stages st -> same_rest st st' -> Dinv st'.
Proof.
  intros st st' [] S E1 E2 (R1 & R2 & R3 & R4 & R5 & R6 & R7).
  assert (HC : forall d, complete st' d <-> complete st d) by (intros; unfold complete; now rewrite E1).
  split; rewrite ?E1, ?E2, ?R4, ?R5, ?R6, ?R7; auto.
  - intros e H. apply HC in H. apply (edge_ok_same st); auto. intros d [Hd _]. auto.
  - destruct D_rank0 as [rank R]. exists rank. intros x n d Hx. apply R. now apply HC.
  - now apply (Qinv_ext _ _ st).
  - destruct D_total0 as [A B]. split; auto. intros e H. apply HC in H. exact (B e H).
Qed.

Lemma gen_outs : forall n e d, In n (outs g e) -> In n (outs g d) -> e = d.
Proof. intros n e d H1 H2. apply (wf_gen g WF) in H1, H2. congruence. Qed.

Lemma existsb_In : forall n l, existsb (Nat.eqb n) l = true <-> In n l.
Proof.
  intros n l. rewrite existsb_exists. split.
  - intros (x & Hx & E). apply Nat.eqb_eq in E. now subst.
  - intros H. exists n. split; auto. apply Nat.eqb_refl.
Qed.

Definition started_add (e : nat) (st : state) : Prop :=
  f_work (es st e) = true /\ f_cycle (es st e) = true.

Lemma begin_add_spec : forall st e, Dinv st -> f_work (es st e) = false -> wanted g targets e ->
  let st' := begin_add g e st in
  Dinv st' /\ (forall d, d <> e -> same st st' d) /\
  started_add e st' /\ nblock (es st' e) = 0%Z /\ f_in (es st' e) = false /\ f_out (es st' e) = deps_lost g e /\
  (f_out (es st' e) = false -> forall n, In n (outs g e) -> dirty st' n = false).
Proof.
  intros st e D Hw Hwant st'. destruct (D_fresh st D e Hw) as (F1 & F2 & F3 & F4).
  set (st1 := upd_es e (fun s => Est true true (f_in s) (f_out s) (nblock s) (nprune s)) (to_stage e Adding st)).
  destruct (mark_all_spec false (outs g e) st1) as (M1 & M2 & M3 & M4).
  set (st2 := mark_all false (outs g e) st1) in *.
  assert (ST : st' = upd_es e (fun s => Est (f_work s) (f_cycle s) (f_in s) (f_out s) 0%Z (nprune s))
     (if deps_lost g e then
              let st := match outs g e with
                        | n :: _ => set_dirty (upf (dirty st2) n true) st2
                        | [] => st2
                        end in
              upd_es e (fun s => Est (f_work s) (f_cycle s) (f_in s) true (nblock s) (nprune s)) st
            else st2)) by reflexivity.
  clearbody st2 st'. subst st'.
  assert (E2 : es st2 e = Est true true false false (nblock (es st e)) (nprune (es st e))).
  { rewrite M1. cbn. rewrite upf_same. now rewrite F2, F3. }
  assert (ES : forall d, d <> e -> es st2 d = es st d) by (intros d N; rewrite M1; cbn; now apply upf_other).
  assert (SS : stages st2 = upf (stages st) e Adding) by (rewrite M2; reflexivity).
  assert (DD : forall n, ~ In n (outs g e) -> dirty st2 n = dirty st n).
  { intros n N. rewrite M4. destruct (existsb (Nat.eqb n) (outs g e)) eqn:X; [apply existsb_In in X; tauto|reflexivity]. }
  assert (D2 : Dinv st2).
  { destruct D.
    assert (HC : forall d, complete st2 d <-> complete st d).
    { intros d. unfold complete. destruct (Nat.eq_dec d e) as [->|N]; [|now rewrite ES].
      rewrite E2, Hw, F1. cbn. intuition discriminate. }
    assert (NE : forall d, complete st d -> d <> e) by (intros d [H _] ->; congruence).
    split.
    - intros d H. apply HC in H. apply (edge_ok_same st); auto. intros x Hx. pose proof (NE x Hx) as N.
      split; [auto|]. split; [rewrite SS; now apply upf_other|].
      intros n Hn. apply DD. intros H'. apply N. now apply (gen_outs n).
    - intros d. rewrite SS. destruct (Nat.eq_dec d e) as [->|N]; [rewrite E2; discriminate|].
      rewrite ES, upf_other by auto. apply D_fresh0.
    - intros d. rewrite SS. destruct (Nat.eq_dec d e) as [->|N]; [rewrite upf_same, E2; auto|].
      rewrite ES, upf_other by auto. apply D_adding0.
    - destruct D_rank0 as [rank R]. exists rank. intros x n d Hx. apply R. now apply HC.
    - destruct M3 as (R1 & R2 & R3 & R4 & R5 & R6 & R7).
      apply (Qinv_ext _ _ (to_stage e Adding st)); auto. apply Qinv_stage; auto; congruence.
    - destruct M3 as (R1 & R2 & R3 & R4 & R5 & R6 & R7). rewrite R5, R6, R7. exact D_none0.
    - destruct M3 as (R1 & R2 & R3 & R4 & R5 & R6 & R7). rewrite R4. destruct D_total0 as [A B]. split; auto.
      intros d Hd. apply HC in Hd. rewrite ES by auto. exact (B d Hd).
    - intros d. destruct (Nat.eq_dec d e) as [->|N]; [auto|]. rewrite ES by auto. apply D_wanted0. }
  assert (S2 : forall d, d <> e -> same st st2 d).
  { intros d N. split; [auto|]. split; [rewrite SS; now apply upf_other|].
    intros n Hn. apply DD. intros H'. apply N. now apply (gen_outs n). }
  assert (O2 : forall n, In n (outs g e) -> dirty st2 n = false).
  { intros n Hn. rewrite M4. apply existsb_In in Hn. now rewrite Hn. }
  set (st3 := if deps_lost g e then
              let st := match outs g e with
                        | n :: _ => set_dirty (upf (dirty st2) n true) st2
                        | [] => st2
                        end in
              upd_es e (fun s => Est (f_work s) (f_cycle s) (f_in s) true (nblock s) (nprune s)) st
            else st2) in *.
  assert (X3 : Dinv st3 /\ (forall d, d <> e -> same st st3 d) /\
     es st3 e = Est true true false (deps_lost g e) (nblock (es st e)) (nprune (es st e)) /\
     (deps_lost g e = false -> forall n, In n (outs g e) -> dirty st3 n = false)).
  { unfold st3. destruct (deps_lost g e) eqn:L.
    - cbv zeta. destruct (outs g e) as [|n ns] eqn:O.
      + split; [apply Dinv_upd; auto; rewrite E2; auto|]. split; [|split; [|discriminate]].
        * intros d N. destruct (S2 d N) as (A & B & C). split; [|split]; auto. cbn. rewrite upf_other by auto. exact A.
        * cbn. rewrite upf_same, E2. reflexivity.
      + set (stn := set_dirty (upf (dirty st2) n true) st2).
        assert (Hn : In n (outs g e)) by (rewrite O; now left).
        assert (DN : forall d m, d <> e -> In m (outs g d) -> dirty stn m = dirty st2 m).
        { intros d m N Hm. cbn. apply upf_other. intros ->. apply N. now apply (gen_outs n). }
        assert (DI : Dinv stn).
        { destruct D2. split; auto.
          - intros d Hd. apply (edge_ok_same st2); auto. intros x Hx. split; [|split]; auto.
            intros m Hm. apply (DN x); auto. intros ->. destruct Hx as [_ Hx]. rewrite E2 in Hx. discriminate.
          - now apply (Qinv_ext _ _ st2). }
        split; [apply Dinv_upd; auto; cbn; rewrite E2; auto|]. split; [|split; [|discriminate]].
        * intros d N. destruct (S2 d N) as (A & B & C). split; [|split]; auto.
          -- cbn. rewrite upf_other by auto. exact A.
          -- intros m Hm. rewrite <- C by auto. apply (DN d); auto.
        * cbn. rewrite upf_same, E2. reflexivity.
    - auto. }
  destruct X3 as (D3 & S3 & E3 & O3).
  clearbody st3. split; [apply Dinv_upd; auto; rewrite E3; auto|].
  split. { intros d N. destruct (S3 d N) as (A & B & C). split; [|split]; auto. cbn. rewrite upf_other by auto. exact A. }
  unfold started_add. cbn. rewrite upf_same, E3. cbn. auto 10.
Qed.

Definition keeps (st st' : state) : Prop :=
  (forall e, f_work (es st e) = true -> same st st' e) /\
  (forall e, f_cycle (es st' e) = f_cycle (es st e)).

Lemma same_trans : forall a b c d, same a b d -> same b c d -> same a c d.
Proof.
  intros a b c d (A1 & A2 & A3) (B1 & B2 & B3). split; [congruence|]. split; [congruence|].
  intros n Hn. rewrite B3, A3; auto.
Qed.
Lemma same_refl : forall a d, same a a d.
Proof. intros. split; [|split]; auto. Qed.

Definition asked (n : nat) : Prop := In n targets \/ exists e, wanted g targets e /\ In n (ins g e).
Definition bad : Prop :=
  (exists d, wanted g targets d /\ depends g d d) \/
  (exists n, asked n /\ gen g n = None /\ mtime fs n = None).
Definition stack (n : nat) (st : state) : Prop :=
  forall d x, f_cycle (es st d) = true -> gen g n = Some x -> depends g d x.
Definition fresh (st : state) : nat := length (filter (fun e => negb (f_work (es st e))) (seq 0 (nedges g))).

Lemma filter_length_le : forall A (p q : A -> bool) l, (forall x, In x l -> p x = true -> q x = true) ->
  length (filter p l) <= length (filter q l).
Proof.
  intros A p q l. induction l as [|x l IH]; intros H; cbn; [lia|].
  assert (IH' : length (filter p l) <= length (filter q l)) by (apply IH; intros; apply H; auto; now right).
  specialize (H x (or_introl eq_refl)). destruct (p x), (q x); cbn; try lia; (exfalso; assert (false = true) by auto; discriminate).
Qed.
Lemma filter_length_lt : forall A (p q : A -> bool) l y, (forall x, In x l -> p x = true -> q x = true) ->
  In y l -> p y = false -> q y = true -> length (filter p l) < length (filter q l).
Proof.
  intros A p q l y. induction l as [|x l IH]; intros H Hy Py Qy; cbn; [easy|].
  assert (L : length (filter p l) <= length (filter q l)) by (apply filter_length_le; intros; apply H; auto; now right).
  destruct Hy as [->|Hy].
  - rewrite Py, Qy. cbn. lia.
  - assert (IH' : length (filter p l) < length (filter q l)) by (apply IH; auto; intros; apply H; auto; now right).
    specialize (H x (or_introl eq_refl)). destruct (p x), (q x); cbn; try lia; (exfalso; assert (false = true) by auto; discriminate).
Qed.

Lemma fresh_le : forall st st', (forall e, f_work (es st e) = true -> f_work (es st' e) = true) -> fresh st' <= fresh st.
Proof.
  intros st st' H. apply filter_length_le. intros e _. rewrite !negb_true_iff. intros X.
  destruct (f_work (es st e)) eqn:Y; auto. apply H in Y. congruence.
Qed.

Definition good (fuel n : nat) (st : state) (r : res state) : Prop :=
  match r with
  | Ok st' => Dinv st' /\ keeps st st' /\ (forall e, gen g n = Some e -> complete st' e) /\
              (gen g n = None -> dirty st' n = false /\ mtime fs n <> None)
  | Fatal => bad
  | Fuel => fuel < fresh st
  | Off => False
  end.

Record LoopInv (e : nat) (pre : list nat) (newest : option Z) (st : state) : Prop := {
  L_D : Dinv st;
  L_started : started_add e st;
  L_block : nblock (es st e) = Z.of_nat (length (filter (pendf st) pre));
  L_in : f_in (es st e) = true <-> exists n d, In n (firstn (inorder g e) pre) /\ gen g n = Some d /\ f_dirty (es st d) = true;
  L_out : f_out (es st e) = deps_lost g e;
  L_outs : f_out (es st e) = false -> forall n, In n (outs g e) -> dirty st n = false;
  L_pre : forall n d, In n pre -> gen g n = Some d -> complete st d;
  L_src : forall n, In n pre -> gen g n = None -> mtime fs n <> None;
  L_newest : is_newest fs (firstn (inorder g e) pre) newest
}.

Lemma firstn_snoc : forall A k (l : list A) x,
  firstn k (l ++ [x]) = if length l <? k then l ++ [x] else firstn k l.
Proof.
  intros A k l x. destruct (Nat.ltb_spec (length l) k).
  - apply firstn_all2. rewrite app_length. cbn. lia.
  - rewrite firstn_app. replace (k - length l) with 0 by lia. cbn. apply app_nil_r.
Qed.

Definition mark_in (s : est) := Est (f_work s) (f_cycle s) true (f_out s) (nblock s) (nprune s).
Definition one_more (s : est) := Est (f_work s) (f_cycle s) (f_in s) (f_out s) (nblock s + 1)%Z (nprune s).
Definition one_input (e n i : nat) (newest : option Z) (st1 : state) : state * option Z :=
  let c := i <? inorder g e in
  let newest' := if c then match mtime fs n with
             | None => newest
             | Some t => if isnewer newest t then newest else Some t
             end else newest in
  let st2 := if c && dirty st1 n then upd_es e mark_in st1 else st1 in
  let blocked := dirty st1 n || match gen g n with Some d => (nblock (es st2 d) >? 0)%Z | None => false end in
  (if blocked then upd_es e one_more st2 else st2, newest').

Lemma inputs_loop_cons : forall add e n ns i newest st,
  inputs_loop g fs add e (n :: ns) i newest st =
  bind (add n st) (fun st1 => inputs_loop g fs add e ns (S i) (snd (one_input e n i newest st1)) (fst (one_input e n i newest st1))).
Proof.
  intros. cbn [inputs_loop]. destruct (add n st) as [st1| | |]; cbn [bind]; try reflexivity.
  unfold one_input. destruct (i <? inorder g e); cbn [andb fst snd]; [|reflexivity].
  destruct (dirty st1 n) eqn:DN; [|rewrite DN; reflexivity].
  change (dirty (upd_es e (fun s => Est (f_work s) (f_cycle s) true (f_out s) (nblock s) (nprune s)) st1) n) with (dirty st1 n).
  rewrite DN. reflexivity.
Qed.

Lemma inputs_loop_spec : forall fuel add e,
  (forall n st, In n (ins g e) -> Dinv st -> stack n st -> good fuel n st (add n st)) ->
  wanted g targets e ->
  forall ns pre newest st, ins g e = pre ++ ns -> LoopInv e pre newest st ->
  (forall d, f_cycle (es st d) = true -> d <> e -> depends g d e) ->
  match inputs_loop g fs add e ns (length pre) newest st with
  | Ok (st', nw) => LoopInv e (ins g e) nw st' /\
      (forall d, d <> e -> f_work (es st d) = true -> same st st' d) /\
      (forall d, f_cycle (es st' d) = f_cycle (es st d))
  | Fatal => bad
  | Fuel => fuel < fresh st
  | Off => False
  end.
Proof.
  intros fuel add e Hadd Hw ns. induction ns as [|n ns IH]; intros pre newest st E LI ST.
  - cbn. rewrite app_nil_r in E. rewrite E. split; auto. split; auto. intros. apply same_refl.
  - rewrite inputs_loop_cons.
    assert (Hn : In n (ins g e)) by (rewrite E; apply in_app_iff; right; now left).
    assert (SK : stack n st).
    { intros d x Hd Hx. destruct (Nat.eq_dec d e) as [->|N].
      - apply dep_one. exists n. auto.
      - assert (X := ST d Hd N). clear - X Hn Hx. induction X as [a b H|a m b H H' IH].
        + apply (dep_more _ _ b); auto. apply dep_one. exists n. auto.
        + apply (dep_more _ _ m); auto. }
    specialize (Hadd n st Hn (L_D _ _ _ _ LI) SK). destruct (add n st) as [st1| | |] eqn:A; cbn [bind good] in *; auto.
    destruct Hadd as (D1 & (KW & KC) & HG & HN).
    destruct LI as [LD LS LB LIN LO LOU LP LSR LN].
    destruct LS as [LS1 LS2].
    assert (Se : same st st1 e) by (apply KW; auto). destruct Se as (Se1 & Se2 & Se3).
    assert (Wk : forall d, f_work (es st d) = true -> f_work (es st1 d) = true).
    { intros d Hd. destruct (KW d Hd) as (-> & _). exact Hd. }
    assert (Cp : forall d, complete st d -> complete st1 d /\ es st1 d = es st d).
    { intros d Hd. destruct (KW d (proj1 Hd)) as (X & _). unfold complete. rewrite X. auto. }
    assert (C1 : f_cycle (es st1 e) = true) by (rewrite Se1; auto).
    assert (dn : dirty st1 n = match gen g n with Some d => f_dirty (es st1 d) | None => false end).
    { destruct (gen g n) as [d|] eqn:G; [|now apply HN].
      apply (K_dirty _ _ (D_ok _ D1 d (HG d eq_refl))). now apply (wf_gen g WF). }
    assert (pf : forall m, In m pre -> pendf st1 m = pendf st m).
    { intros m Hm. unfold pendf. destruct (gen g m) as [d|] eqn:G; [|reflexivity].
      destruct (Cp d (LP m d Hm G)) as [_ ->]. reflexivity. }
    remember (length pre <? inorder g e) as c eqn:Hc.
    set (newest' := if c then match mtime fs n with
             | None => newest
             | Some t => if isnewer newest t then newest else Some t
             end else newest).
    set (st2 := if c && dirty st1 n then upd_es e mark_in st1 else st1).
    set (blocked := dirty st1 n || match gen g n with Some d => (nblock (es st2 d) >? 0)%Z | None => false end).
    set (st3 := if blocked then upd_es e one_more st2 else st2).
    assert (RW : one_input e n (length pre) newest st1 = (st3, newest')) by (unfold one_input; rewrite <- Hc; reflexivity).
    rewrite RW. cbn [fst snd]. clear RW.
    replace (S (length pre)) with (length (pre ++ [n])) by (rewrite app_length; cbn; lia).
    assert (NCe : ~ complete st1 e) by (intros [_ X]; congruence).
    assert (gne : forall m d, In m (pre ++ [n]) -> gen g m = Some d -> complete st1 d /\ d <> e).
    { intros m d Hm G. assert (X : complete st1 d).
      { apply in_app_iff in Hm as [Hm|[<-|[]]]; [|now apply HG]. apply Cp. now apply (LP m). }
      split; auto. intros ->. contradiction. }
    assert (O2 : forall d, d <> e -> es st2 d = es st1 d).
    { intros d N. unfold st2. destruct (c && dirty st1 n); [|reflexivity]. cbn. now apply upf_other. }
    assert (O3 : forall d, d <> e -> es st3 d = es st1 d).
    { intros d N. unfold st3. destruct blocked; [|auto]. cbn. rewrite upf_other; auto. }
    assert (Dy : dirty st3 = dirty st1 /\ stages st3 = stages st1).
    { unfold st3, st2. destruct blocked; destruct (c && dirty st1 n); split; reflexivity. }
    destruct Dy as [Dy Sg].
    assert (Bk : blocked = pendf st1 n).
    { unfold blocked, pendf. rewrite dn. destruct (gen g n) as [d|] eqn:G; [|reflexivity].
      destruct (gne n d) as [_ N]; [apply in_app_iff; right; now left|exact G|]. rewrite O2; auto. }
    assert (Ee : es st3 e = Est true true (f_in (es st e) || (c && dirty st1 n)) (f_out (es st e))
       (nblock (es st e) + if pendf st1 n then 1 else 0)%Z (nprune (es st e))).
    { unfold st3. rewrite Bk. unfold st2.
      destruct (pendf st1 n); destruct (c && dirty st1 n); cbn; rewrite ?upf_same; cbn;
      rewrite ?upf_same; cbn; rewrite ?Se1, ?LS1, ?LS2, ?orb_true_r, ?orb_false_r, ?Z.add_0_r; auto;
      destruct (es st e); cbn in *; subst; rewrite ?orb_false_r; reflexivity. }
    assert (D2 : Dinv st2).
    { unfold st2. destruct (c && dirty st1 n); auto. apply Dinv_upd; auto. }
    assert (D3 : Dinv st3).
    { unfold st3. destruct blocked; auto. apply Dinv_upd; auto.
      unfold st2. destruct (c && dirty st1 n); auto. cbn. now rewrite upf_same. }
    clearbody st3 blocked.
    assert (pf3 : forall m, In m (pre ++ [n]) -> pendf st3 m = pendf st1 m).
    { intros m Hm. unfold pendf. destruct (gen g m) as [d|] eqn:G; [|reflexivity].
      destruct (gne m d Hm G) as [_ N]. now rewrite O3. }
    assert (LI3 : LoopInv e (pre ++ [n]) newest' st3).
    { split; auto.
      - unfold started_add. rewrite Ee. auto.
      - rewrite Ee. cbn. rewrite (filter_ext_In _ (pendf st3) (pendf st1)) by exact pf3.
        rewrite filter_app, app_length, LB. rewrite (filter_ext_In _ (pendf st1) (pendf st) pre) by exact pf. cbn.
        destruct (pendf st1 n); cbn; lia.
      - rewrite Ee. cbn. rewrite orb_true_iff, LIN, andb_true_iff. rewrite firstn_snoc, <- Hc.
        assert (X : forall l, incl l pre ->
          ((exists n0 d, In n0 l /\ gen g n0 = Some d /\ f_dirty (es st d) = true) <->
           (exists n0 d, In n0 l /\ gen g n0 = Some d /\ f_dirty (es st3 d) = true))).
        { intros l Hl. split; intros (m & d & Hm & G & Fd); exists m, d; split; auto; split; auto;
          (destruct (gne m d) as [_ N]; [apply in_app_iff; left; now apply Hl|exact G|]);
          destruct (Cp d (LP m d (Hl m Hm) G)) as [_ Y]; rewrite <- (O3 d N) in Y;
          first [rewrite Y; exact Fd | rewrite <- Y; exact Fd]. }
        destruct c.
        + rewrite firstn_all2 by (symmetry in Hc; apply Nat.ltb_lt in Hc; lia). rewrite (X pre) by apply incl_refl. split.
          * intros [(m & d & Hm & G & Fd)|[_ Dn]].
            -- exists m, d. split; auto. apply in_app_iff; auto.
            -- rewrite dn in Dn. destruct (gen g n) as [d|] eqn:G; [|discriminate].
               exists n, d. split; [apply in_app_iff; right; now left|]. split; auto.
               destruct (gne n d) as [_ N]; [apply in_app_iff; right; now left|exact G|]. rewrite O3; auto.
          * intros (m & d & Hm & G & Fd). apply in_app_iff in Hm as [Hm|[<-|[]]].
            -- left. exists m, d. auto.
            -- right. split; auto. rewrite dn, G.
               destruct (gne n d) as [_ N]; [apply in_app_iff; right; now left|exact G|]. rewrite O3 in Fd; auto.
        + rewrite (X (firstn (inorder g e) pre)) by (intros m; apply firstn_In).
          split; [intros [H|[H _]]; [auto|discriminate]|auto].
      - rewrite Ee. exact LO.
      - rewrite Ee, Dy. cbn. intros X m Hm. rewrite Se3; auto.
      - intros m d Hm G. destruct (gne m d Hm G) as [X N]. unfold complete. rewrite O3; auto.
      - intros m Hm G. apply in_app_iff in Hm as [Hm|[<-|[]]]; [now apply LSR|now apply HN].
      - rewrite firstn_snoc, <- Hc. destruct c; auto.
        rewrite firstn_all2 in LN by (symmetry in Hc; apply Nat.ltb_lt in Hc; lia). now apply newest_snoc. }
    specialize (IH (pre ++ [n]) newest' st3).
    assert (CY : forall d, f_cycle (es st3 d) = f_cycle (es st d)).
    { intros d. destruct (Nat.eq_dec d e) as [->|N]; [rewrite Ee; auto|]. rewrite O3; auto. }
    assert (KS : forall d, d <> e -> f_work (es st d) = true -> same st st3 d).
    { intros d N Hd. destruct (KW d Hd) as (A1 & A2 & A3). split; [rewrite O3; auto|].
      split; [now rewrite Sg|]. intros m Hm. rewrite Dy. auto. }
    rewrite <- app_assoc in IH. specialize (IH E LI3).
    assert (ST3 : forall d, f_cycle (es st3 d) = true -> d <> e -> depends g d e) by (intros d; rewrite CY; auto).
    specialize (IH ST3).
    destruct (inputs_loop g fs add e ns (length (pre ++ [n])) newest' st3) as [[st' nw]| | |]; auto.
    + destruct IH as (I1 & I2 & I3). split; auto. split.
      * intros d N Hd. apply (same_trans _ st3); auto. apply I2; auto. rewrite O3; auto.
      * intros d. now rewrite I3.
    + assert (fresh st3 <= fresh st); [|lia]. apply fresh_le. intros d Hd.
      destruct (Nat.eq_dec d e) as [->|N]; [now rewrite Ee|]. rewrite O3; auto.
Qed.

Definition with_out (b : bool) (s : est) := Est (f_work s) (f_cycle s) (f_in s) b (nblock s) (nprune s).

Lemma outputs_loop_spec : forall e newest, is_newest fs (normal_ins g e) newest ->
  forall ns st, Dinv st -> started_add e st -> incl ns (outs g e) ->
  let st' := outputs_loop g fs e newest ns st in
  Dinv st' /\ same_rest st st' /\ stages st' = stages st /\ (forall d, d <> e -> same st st' d) /\
  (exists b, es st' e = with_out b (es st e) /\
    (b = true <-> f_out (es st e) = true \/ exists n, In n ns /\ output_old g fs e n) /\
    (b = false -> dirty st' = dirty st)).
Proof.
  intros e newest HN ns. induction ns as [|n ns IH]; intros st D S I; cbn [outputs_loop].
  - split; [exact D|]. split; [unfold same_rest; auto 10|]. split; [reflexivity|].
    split; [intros; apply same_refl|]. exists (f_out (es st e)). split; [now destruct (es st e)|].
    split; [|reflexivity]. split; [auto|]. intros [H|(n & [] & _)]. exact H.
  - destruct (f_out (es st e)) eqn:O.
    + split; [exact D|]. split; [unfold same_rest; auto 10|]. split; [reflexivity|].
      split; [intros; apply same_refl|]. exists true. split; [unfold with_out; rewrite <- O; now destruct (es st e)|].
      split; [|discriminate]. split; auto.
    + assert (Hn : In n (outs g e)) by (apply I; now left).
      assert (I' : incl ns (outs g e)) by (intros x Hx; apply I; now right).
      pose proof (isdirty_spec g fs e n newest HN) as SP.
      destruct (isdirty g fs n newest e) eqn:X.
      * set (stn := set_dirty (upf (dirty st) n true) st).
        set (st1 := upd_es e (fun s => Est (f_work s) (f_cycle s) (f_in s) true (nblock s) (nprune s)) stn).
        assert (DN : forall d m, d <> e -> In m (outs g d) -> dirty stn m = dirty st m).
        { intros d m N Hm. cbn. apply upf_other. intros ->. apply N. now apply (gen_outs n). }
        assert (Dn : Dinv stn).
        { destruct D. split; auto.
          - intros d Hd. apply (edge_ok_same st); auto. intros x Hx. split; [|split]; auto.
            intros m Hm. apply (DN x); auto. intros ->. destruct Hx as [_ Hx]. destruct S as [_ S]. congruence.
          - now apply (Qinv_ext _ _ st). }
        assert (D1 : Dinv st1) by (apply Dinv_upd; auto; apply S).
        assert (E1 : es st1 e = with_out true (es st e)) by (cbn; now rewrite upf_same).
        assert (R : outputs_loop g fs e newest ns st1 = st1).
        { destruct ns; cbn [outputs_loop]; [reflexivity|]. rewrite E1. reflexivity. }
        cbv zeta. fold st1. rewrite R. split; [exact D1|]. split; [unfold same_rest; auto 10|].
        split; [reflexivity|]. split.
        { intros d N. split; [cbn; now apply upf_other|]. split; [reflexivity|].
          intros m Hm. apply (DN d); auto. }
        exists true. split; [exact E1|]. split; [|discriminate]. split; auto.
        intros _. right. exists n. split; [now left|]. now apply SP.
      * destruct (IH st D S I') as (A & B & C & E & b & F1 & F2 & F3).
        split; [exact A|]. split; [exact B|]. split; [exact C|]. split; [exact E|].
        exists b. split; [exact F1|]. split; [|exact F3]. rewrite F2. rewrite O. split.
        -- intros [H|(m & Hm & H)]; [discriminate|]. right. exists m. split; auto. now right.
        -- intros [H|(m & [<-|Hm] & H)]; [discriminate| |right; eauto]. apply SP in H. discriminate.
Qed.

Lemma max_rank : forall (rank : nat -> nat) (l : list nat), exists k, forall n d, In n l -> gen g n = Some d -> rank d < k.
Proof.
  intros rank l. induction l as [|n l [k IH]]; [exists 0; easy|].
  exists (k + match gen g n with Some d => S (rank d) | None => 0 end).
  intros m d [<-|H] G; [rewrite G; lia|]. specialize (IH m d H G). lia.
Qed.

Lemma finish_add_spec : forall e newest st, LoopInv e (ins g e) newest st ->
  let st' := finish_add g fs e newest st in
  Dinv st' /\ complete st' e /\ (forall d, d <> e -> same st st' d).
Proof.
  intros e newest st [LD LS LB LIN LO LOU LP LSR LN] st'.
  fold (normal_ins g e) in LN, LIN.
  destruct (outputs_loop_spec e newest LN (outs g e) st LD LS (incl_refl _)) as (D1 & R1 & G1 & S1 & b & E1 & B1 & B2).
  assert (ST : st' = finish_add g fs e newest st) by reflexivity. clearbody st'.
  unfold finish_add in ST. set (st1 := outputs_loop g fs e newest (outs g e) st) in *. clearbody st1.
  assert (SO : b = true <-> self_old g fs e).
  { rewrite B1, LO. reflexivity. }
  set (dy := f_in (es st e) || b).
  assert (FD1 : f_dirty (es st1 e) = dy) by (rewrite E1; reflexivity).
  rewrite FD1 in ST.
  set (st2 := if dy then mark_all true (outs g e) st1 else st1) in *.
  assert (X2 : es st2 = es st1 /\ stages st2 = stages st1 /\ same_rest st1 st2 /\
     (forall n, In n (outs g e) -> dirty st2 n = dy) /\ (forall n, ~ In n (outs g e) -> dirty st2 n = dirty st1 n)).
  { unfold st2. destruct dy eqn:Dy.
    - destruct (mark_all_spec true (outs g e) st1) as (M1 & M2 & M3 & M4). split; auto. split; auto. split; auto. split.
      + intros n Hn. rewrite M4. apply existsb_In in Hn. now rewrite Hn.
      + intros n Hn. rewrite M4. destruct (existsb (Nat.eqb n) (outs g e)) eqn:X; [apply existsb_In in X; tauto|reflexivity].
    - split; auto. split; auto. split; [unfold same_rest; auto 10|]. split; auto.
      intros n Hn. apply orb_false_iff in Dy as [Dy1 Dy2]. rewrite B2 by auto. apply LOU; auto.
      destruct (f_out (es st e)) eqn:FO; auto. assert (b = true) by (apply B1; auto). congruence. }
  destruct X2 as (X2a & X2b & X2c & X2d & X2e). clearbody st2.
  rewrite X2a, E1 in ST. cbn [with_out f_out] in ST.
  set (nb := nblock (es st e)).
  set (st3 := if b then st2 else upd_es e (fun s => Est (f_work s) (f_cycle s) (f_in s) (f_out s) (nblock s) (nblock s)) st2) in *.
  assert (X3 : es st3 e = Est true true (f_in (es st e)) b nb (if b then nprune (es st e) else nb) /\
     (forall d, d <> e -> es st3 d = es st1 d) /\ dirty st3 = dirty st2 /\ stages st3 = stages st1 /\ same_rest st1 st3).
  { destruct LS as [L1 L2]. unfold st3. destruct b.
    - rewrite X2a, E1. unfold with_out. rewrite L1, L2. auto 10.
    - cbn. rewrite upf_same, X2a, E1. unfold with_out. cbn. rewrite L1, L2. split; [reflexivity|].
      split; [intros; now apply upf_other|]. split; [reflexivity|]. split; [auto|]. exact X2c. }
  destruct X3 as (X3a & X3b & X3c & X3d & X3e). clearbody st3.
  rewrite X3a in ST. cbn [nblock] in ST.
  set (st4 := to_stage e (if (nb =? 0)%Z then UpToDate else Waiting) st3) in *.
  change (es st4 e) with (es st3 e) in ST. rewrite X3a in ST. cbn [nblock] in ST.
  change (f_dirty (Est true true (f_in (es st e)) b nb (if b then nprune (es st e) else nb))) with dy in ST.
  set (st5 := if dy then let st := if (nb =? 0)%Z then queue g e st4 else st4 in
              if phony g e then st else set_ntotal (ntotal st + 1)%Z st else st4) in *.
  assert (A1 : stages st1 e = Adding).
  { apply (D_adding _ D1). rewrite E1. apply LS. }
  assert (Q3 : Qinv g o st3).
  { destruct X3e as (R2 & R3 & R4 & R5 & R6 & R7 & R8). apply (Qinv_ext _ _ st1); auto. apply (D_queue _ D1). }
  assert (Q4 : Qinv g o st4).
  { apply Qinv_stage; auto; try (rewrite X3d, A1; discriminate); destruct (nb =? 0)%Z; discriminate. }
  assert (S4 : stages st4 e <> Ready /\ stages st4 e <> Running).
  { cbn. rewrite upf_same. destruct (nb =? 0)%Z; split; discriminate. }
  assert (X5 : es st5 = es st3 /\ dirty st5 = dirty st3 /\ Qinv g o st5 /\
     (forall d, d <> e -> stages st5 d = stages st3 d) /\
     stages st5 e = (if (nb =? 0)%Z then if dy then Ready else UpToDate else Waiting) /\
     running st5 = running st3 /\ trace st5 = trace st3 /\ numfail st5 = numfail st3 /\
     (ntotal st3 <= ntotal st5)%Z /\ (dy = true -> phony g e = false -> ntotal st5 = ntotal st3 + 1)%Z).
  { unfold st5. cbv zeta. destruct dy.
    - set (st4' := if (nb =? 0)%Z then queue g e st4 else st4).
      assert (Z : es st4' = es st3 /\ dirty st4' = dirty st3 /\ Qinv g o st4' /\
        (forall d, d <> e -> stages st4' d = stages st3 d) /\
        stages st4' e = (if (nb =? 0)%Z then Ready else Waiting) /\
        running st4' = running st3 /\ trace st4' = trace st3 /\ numfail st4' = numfail st3 /\ ntotal st4' = ntotal st3).
      { unfold st4'. destruct (nb =? 0)%Z eqn:NB.
        - rewrite queue_es, queue_dirty, queue_stages, queue_running, queue_trace, queue_numfail, queue_ntotal, upf_same.
          split; auto. split; auto. split; [apply Qinv_queue; auto; try apply (wf_depth g WF); apply S4|].
          split; [|auto 10]. intros d N. rewrite upf_other by auto. cbn. now rewrite upf_other.
        - split; auto. split; auto. split; auto. split; [intros d N; cbn; now rewrite upf_other|].
          split; [cbn; apply upf_same|]. auto. }
      destruct Z as (Z1 & Z2 & Z3 & Z4 & Z5 & Z6 & Z7 & Z8 & Z9).
      destruct (phony g e).
      + refine (conj Z1 (conj Z2 (conj Z3 (conj Z4 (conj Z5 (conj Z6 (conj Z7 (conj Z8 (conj _ _))))))))); [lia|discriminate].
      + cbn. refine (conj Z1 (conj Z2 (conj _ (conj Z4 (conj Z5 (conj Z6 (conj Z7 (conj Z8 (conj _ _))))))))); try lia.
        now apply (Qinv_ext _ _ st4').
    - split; auto. split; auto. split; auto. split; [intros d N; cbn; now rewrite upf_other|].
      split; [cbn; rewrite upf_same; now destruct (nb =? 0)%Z|].
      refine (conj eq_refl (conj eq_refl (conj eq_refl (conj _ _)))); [cbn; lia|discriminate]. }
  destruct X5 as (X5a & X5b & X5c & X5d & X5e & X5f & X5g & X5h & X5i & X5j). clearbody st5.
  set (fin := Est true false (f_in (es st e)) b nb (if b then nprune (es st e) else nb)).
  assert (Ee : es st' e = fin) by (rewrite ST; cbn; rewrite upf_same, X5a, X3a; reflexivity).
  assert (Ed : forall d, d <> e -> es st' d = es st1 d) by (intros d N; rewrite ST; cbn; rewrite upf_other, X5a by auto; auto).
  assert (F : dirty st' = dirty st5 /\ stages st' = stages st5 /\ same_rest st5 st').
  { rewrite ST. split; [|split]; auto. unfold same_rest. auto 10. }
  destruct F as (F1 & F2 & F3 & F4 & F5 & F6 & F7 & F8 & F9).
  clear ST.
  assert (SM : forall d, d <> e -> same st1 st' d).
  { intros d N. split; auto. split; [rewrite F2, X5d, X3d; auto|].
    intros n Hn. rewrite F1, X5b, X3c. apply X2e. intros Hn'. apply N. now apply (gen_outs n). }
  assert (SM' : forall d, d <> e -> same st st' d) by (intros d N; apply (same_trans _ st1); auto).
  assert (Ce : complete st' e) by (unfold complete; rewrite Ee; auto).
  assert (NC1 : ~ complete st1 e) by (intros [_ H]; rewrite E1 in H; destruct LS as [_ L2]; cbn in H; congruence).
  assert (Cd : forall d, d <> e -> (complete st' d <-> complete st1 d)).
  { intros d N. unfold complete. now rewrite Ed. }
  assert (LPe : forall n d, In n (ins g e) -> gen g n = Some d -> complete st d /\ d <> e).
  { intros n d Hn G. pose proof (LP n d Hn G) as C. split; auto. intros ->. destruct C as [_ C], LS as [_ L2]. congruence. }
  split; [|split; auto].
  destruct D1. split.
  - intros d Hd. destruct (Nat.eq_dec d e) as [->|N].
    + split.
      * intros n x Hn G. destruct (LPe n x Hn G) as [C N]. apply Cd; auto. unfold complete in *. destruct (S1 x N) as (-> & _). auto.
      * auto.
      * rewrite Ee. cbn. unfold nb. rewrite LB. f_equal. f_equal. apply filter_ext_In. intros n Hn. unfold pendf.
        destruct (gen g n) as [x|] eqn:G; [|reflexivity]. destruct (LPe n x Hn G) as [C N]. destruct (SM' x N) as (-> & _). reflexivity.
      * rewrite Ee. cbn. rewrite LIN. split; intros (n & x & Hn & G & Fd); exists n, x; split; auto; split; auto;
        destruct (LPe n x (firstn_In _ _ _ _ Hn) G) as [C N]; destruct (SM' x N) as (Y & _); [now rewrite Y|now rewrite Y in Fd].
      * rewrite Ee. cbn. exact SO.
      * rewrite Ee. cbn. intros ->. reflexivity.
      * intros n Hn. rewrite Ee. cbn. rewrite F1, X5b, X3c. now apply X2d.
      * rewrite Ee, F2, X5e. reflexivity.
    + apply (edge_ok_same st1); [now apply Cd|apply D_ok0; now apply Cd|].
      intros x Hx. apply SM. intros ->. contradiction.
  - intros d. destruct (Nat.eq_dec d e) as [->|N]; [rewrite Ee; discriminate|].
    destruct (SM d N) as (-> & -> & _). apply D_fresh0.
  - intros d. destruct (Nat.eq_dec d e) as [->|N]; [rewrite Ee; discriminate|].
    destruct (SM d N) as (-> & -> & _). apply D_adding0.
  - destruct D_rank0 as [rank R]. destruct (max_rank rank (ins g e)) as [k Hk].
    exists (fun x => if x =? e then k else rank x). intros x n d Hx Hn G.
    destruct (Nat.eq_dec x e) as [->|N].
    + rewrite Nat.eqb_refl. destruct (LPe n d Hn G) as [_ N]. apply Nat.eqb_neq in N. rewrite N. now apply (Hk n).
    + pose proof N as N'. apply Nat.eqb_neq in N'. rewrite N'. apply Cd in Hx; auto.
      assert (C1 := K_ins _ _ (D_ok0 x Hx) n d Hn G).
      destruct (Nat.eqb_spec d e) as [->|]; [contradiction|]. now apply (R x n d).
  - apply (Qinv_ext _ _ st5); auto.
  - destruct X3e as (R2 & R3 & R4 & R5 & R6 & R7 & R8).
    rewrite F7, F8, F9, X5f, X5g, X5h, R6, R7, R8. exact D_none0.
  - destruct X3e as (R2 & R3 & R4 & R5 & R6 & R7 & R8). rewrite F6. destruct D_total0 as [T1 T2].
    split; [lia|]. intros d Hd Fd Ph. destruct (Nat.eq_dec d e) as [->|N].
    + rewrite Ee in Fd. rewrite X5j; auto. lia.
    + apply Cd in Hd; auto. rewrite Ed in Fd by auto. specialize (T2 d Hd Fd Ph). lia.
  - intros d. destruct (Nat.eq_dec d e) as [->|N].
    + intros _. apply D_wanted0. rewrite E1. apply LS.
    + rewrite Ed by auto. apply D_wanted0.
Qed.

Lemma wanted_asked : forall n e, asked n -> gen g n = Some e -> wanted g targets e.
Proof.
  intros n e [H|(d & Hd & Hn)] G.
  - now apply (wanted_target _ _ n).
  - apply (wanted_needed _ _ d); auto. exists n. auto.
Qed.

Lemma buildadd_spec : forall fuel n st, Dinv st -> asked n -> stack n st -> good fuel n st (buildadd g fs fuel n st).
Proof.
  assert (B : forall fuel n st, buildadd g fs fuel n st =
    match gen g n with
    | None => match mtime fs n with None => Fatal | Some _ => Ok (set_dirty (upf (dirty st) n false) st) end
    | Some e =>
      if f_cycle (es st e) then Fatal
      else if f_work (es st e) then Ok st
      else match fuel with
           | O => Fuel
           | S fuel' => bind (inputs_loop g fs (buildadd g fs fuel') e (ins g e) 0 None (begin_add g e st))
                             (fun r => Ok (finish_add g fs e (snd r) (fst r)))
           end
    end) by (intros [|fuel] n st; reflexivity).
  induction fuel as [|fuel IH]; intros n st D Ha Hs; rewrite B; clear B;
  (destruct (gen g n) as [e|] eqn:G;
   [|destruct (mtime fs n) as [t|] eqn:M;
     [cbn [good]; split; [|split; [|split]];
      [apply (Dinv_same st); auto; [|unfold same_rest; auto 10];
       intros d Hd; split; [|split]; auto; intros m Hm; cbn; apply upf_other; intros ->;
       apply (wf_gen g WF) in Hm; congruence
      |split; auto; intros d Hd; split; [|split]; auto; intros m Hm; cbn; apply upf_other; intros ->;
       apply (wf_gen g WF) in Hm; congruence
      |congruence
      |intros _; cbn; rewrite upf_same; split; congruence]
     |right; exists n; auto]]);
  (destruct (f_cycle (es st e)) eqn:C;
   [left; exists e; split; [now apply (wanted_asked n)|now apply Hs]|]);
  (destruct (f_work (es st e)) eqn:W;
   [cbn [good]; split; [exact D|]; split; [split; auto; intros; apply same_refl|]; split; [|congruence];
    intros e' E'; assert (e' = e) by congruence; subst e'; split; auto|]).
  - cbn [good]. unfold fresh. assert (H : e < nedges g) by now apply (wf_edges g WF n).
    destruct (filter (fun e0 => negb (f_work (es st e0))) (seq 0 (nedges g))) eqn:F; cbn; [|lia].
    assert (X : In e (filter (fun e0 => negb (f_work (es st e0))) (seq 0 (nedges g)))).
    { apply filter_In. split; [apply in_seq; lia|]. now rewrite W. }
    rewrite F in X. contradiction.
  - assert (We : wanted g targets e) by now apply (wanted_asked n).
    destruct (begin_add_spec st e D W We) as (D1 & S1 & (A1 & A2) & NB & FI & FO & DO).
    set (st1 := begin_add g e st) in *. clearbody st1.
    assert (LI : LoopInv e [] None st1).
    { split; auto.
      - split; auto.
      - rewrite FI. split; [discriminate|]. rewrite firstn_nil. intros (m & d & [] & _).
      - intros m d [].
      - rewrite firstn_nil. cbn. easy. }
    assert (CY : forall d, f_cycle (es st1 d) = true -> d <> e -> depends g d e).
    { intros d Hd N. destruct (S1 d N) as (X & _). rewrite X in Hd. now apply (Hs d e). }
    assert (Fr : fresh st1 < fresh st).
    { apply (filter_length_lt _ _ _ _ e).
      - intros d _. rewrite !negb_true_iff. destruct (Nat.eq_dec d e) as [->|N]; [congruence|].
        destruct (S1 d N) as (-> & _). auto.
      - apply in_seq. split; [lia|]. cbn. now apply (wf_edges g WF n).
      - now rewrite A1.
      - now rewrite W. }
    pose proof (inputs_loop_spec fuel (buildadd g fs fuel) e
      (fun m s Hm Ds Ss => IH m s Ds (or_intror (ex_intro _ e (conj We Hm))) Ss) We (ins g e) [] None st1 eq_refl LI CY) as LP.
    cbn [length] in LP.
    destruct (inputs_loop g fs (buildadd g fs fuel) e (ins g e) 0 None st1) as [[st2 nw]| | |]; cbn [bind good fst snd]; auto.
    + destruct LP as (LI2 & SM & CC).
      destruct (finish_add_spec e nw st2 LI2) as (D3 & C3 & S3).
      split; [exact D3|]. split; [|split; [|congruence]].
      * split.
        -- intros d Hd. assert (N : d <> e) by congruence.
           apply (same_trans _ st1); auto. apply (same_trans _ st2); auto.
           apply SM; auto. destruct (S1 d N) as (-> & _). exact Hd.
        -- intros d. destruct (Nat.eq_dec d e) as [->|N].
           ++ rewrite C. apply C3.
           ++ destruct (S3 d N) as (-> & _). rewrite CC. destruct (S1 d N) as (-> & _). reflexivity.
      * intros e' E'. assert (e' = e) by congruence. subst e'. exact C3.
    + lia.
Qed.

Lemma init_Dinv : forall d0, Dinv (init d0).
Proof.
  intros d0. split; cbn; auto.
  - intros e [H _]. discriminate.
  - discriminate.
  - exists (fun _ => 0). intros e n d [H _]. discriminate.
  - split; cbn; unfold queued; cbn; auto; try (intros; constructor); try easy.
    + intros [[]|[p []]].
    + intros p. pose proof (wf_depth g WF p). lia.
  - split; [lia|]. intros e [H _]. discriminate.
  - discriminate.
Qed.

Lemma each_targets : forall l st, incl l targets -> Dinv st -> (forall e, f_cycle (es st e) = false) ->
  match each (buildadd g fs (S (nedges g))) l st with
  | Ok st' => Dinv st' /\ (forall e, f_cycle (es st' e) = false) /\
      (forall e, f_work (es st e) = true -> f_work (es st' e) = true) /\
      (forall n, In n l -> match gen g n with Some e => f_work (es st' e) = true | None => mtime fs n <> None end)
  | Fatal => bad
  | _ => False
  end.
Proof.
  intros l. induction l as [|n l IH]; intros st I D C; cbn [each].
  - split; auto. split; auto. split; auto. intros n [].
  - assert (A : asked n) by (left; apply I; now left).
    assert (Sk : stack n st) by (intros d x H; rewrite C in H; discriminate).
    pose proof (buildadd_spec (S (nedges g)) n st D A Sk) as G.
    destruct (buildadd g fs (S (nedges g)) n st) as [st1| | |]; cbn [bind good] in *; auto.
    + destruct G as (D1 & (KW & KC) & HG & HN).
      assert (C1 : forall e, f_cycle (es st1 e) = false) by (intros; rewrite KC; auto).
      assert (I1 : incl l targets) by (intros x Hx; apply I; now right).
      specialize (IH st1 I1 D1 C1). destruct (each (buildadd g fs (S (nedges g))) l st1) as [st2| | |]; auto.
      destruct IH as (A1 & A2 & A3 & A4). split; auto. split; auto. split.
      * intros e He. apply A3. destruct (KW e He) as (-> & _). exact He.
      * intros m [<-|Hm]; [|exact (A4 m Hm)]. destruct (gen g n) as [e|]; [|now apply HN].
        apply A3. now apply HG.
    + assert (fresh st <= nedges g); [|lia]. unfold fresh. rewrite <- (seq_length (nedges g) 0) at 2.
      generalize (seq 0 (nedges g)). intros s. induction s as [|x s IHs]; cbn; [lia|]. destruct (negb _); cbn; lia.
Qed.

Lemma complete_wanted : forall st, Dinv st -> (forall e, f_cycle (es st e) = false) ->
  (forall n, In n targets -> match gen g n with Some e => f_work (es st e) = true | None => mtime fs n <> None end) ->
  forall e, wanted g targets e <-> complete st e.
Proof.
  intros st D C T e. split.
  - intros H. induction H as [n e Hn G|e d H IH [n [Hn G]]].
    + split; auto. specialize (T n Hn). now rewrite G in T.
    + now apply (K_ins _ _ (D_ok _ D e IH) n).
  - intros [H _]. now apply (D_wanted _ D).
Qed.

Lemma dirty_outdated : forall st, Dinv st -> forall e, complete st e -> (f_dirty (es st e) = true <-> outdated g fs e).
Proof.
  intros st D. destruct (D_rank _ D) as [rank R].
  assert (H : forall k e, rank e < k -> complete st e -> (f_dirty (es st e) = true <-> outdated g fs e)).
  { induction k as [|k IH]; intros e L C; [lia|]. pose proof (D_ok _ D e C) as K.
    assert (IH' : forall n d, In n (normal_ins g e) -> gen g n = Some d -> (f_dirty (es st d) = true <-> outdated g fs d)).
    { intros n d Hn G. apply IH.
      - assert (rank d < rank e); [|lia]. apply (R e n d); auto. eapply firstn_In, Hn.
      - eapply (K_ins _ _ K n); eauto. eapply firstn_In, Hn. }
    unfold f_dirty. rewrite orb_true_iff, (K_in _ _ K), (K_out _ _ K). split.
    - intros [(n & d & Hn & G & F)|S]; [|now apply outdated_self].
      apply (outdated_input _ _ _ n d); auto. now apply (proj1 (IH' n d Hn G)).
    - intros O. inversion O as [x S|x n d Hn G O']; subst; [now right|].
      left. exists n, d. split; auto. split; auto. now apply (proj2 (IH' n d Hn G)). }
  intros e. apply (H (S (rank e))). lia.
Qed.

(** The plan: what add_targets leaves behind. *)
Lemma plan_spec : forall d0,
  match add_targets g fs targets (init d0) with
  | Ok st => Dinv st /\ (forall e, f_cycle (es st e) = false) /\ (forall e, wanted g targets e <-> complete st e) /\ ~ bad
  | Fatal => bad
  | _ => False
  end.
Proof.
  intros d0. unfold add_targets.
  pose proof (each_targets targets (init d0) (incl_refl _) (init_Dinv d0) (fun _ => eq_refl)) as H.
  destruct (each (buildadd g fs (S (nedges g))) targets (init d0)) as [st| | |]; auto.
  destruct H as (D & C & _ & T). split; auto. split; auto.
  pose proof (complete_wanted st D C T) as CW. split; auto.
  intros [(d & Hd & Dp)|(n & [Ht|(e & He & Hn)] & G & M)].
  - destruct (D_rank _ D) as [rank R].
    assert (X : forall a b, depends g a b -> complete st a -> complete st b /\ rank b < rank a).
    { intros a b H. induction H as [a b [n [Hn G]]|a m b [n [Hn G]] H' IH]; intros Ca.
      - split; [now apply (K_ins _ _ (D_ok _ D a Ca) n)|now apply (R a n)].
      - assert (Cm : complete st m) by now apply (K_ins _ _ (D_ok _ D a Ca) n).
        destruct (IH Cm) as [A B]. split; auto. assert (rank m < rank a) by now apply (R a n). lia. }
    destruct (X d d Dp (proj1 (CW d) Hd)). lia.
  - specialize (T n Ht). rewrite G in T. contradiction.
  - apply (K_src _ _ (D_ok _ D e (proj1 (CW e) He)) n); auto.
Qed.
End Plan.
