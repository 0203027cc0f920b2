From Verif Require Import Base M_Format M_Array S_Array.

(** ** Heaps *)
Lemma get_lt h i x : get h i = Some x -> i < length h.
Proof. intros E. apply nth_error_Some. unfold get in E. congruence. Qed.
Lemma get_some h i : i < length h -> exists x, get h i = Some x.
Proof. intros E. apply nth_error_Some in E. unfold get. destruct (nth_error h i); [eauto|congruence]. Qed.

Lemma get_put_same h i c : i < length h -> get (put h i c) i = Some c.
Proof. apply nth_error_upd_same. Qed.
Lemma get_put_other h i j c : i <> j -> get (put h i c) j = get h j.
Proof. apply nth_error_upd_other. Qed.
Lemma put_length h i c : length (put h i c) = length h.
Proof. apply upd_length. Qed.

Lemma modify_ok h i x f : get h i = Some x ->
  exists h', modify h i f = Some h' /\ length h' = length h /\ get h' i = Some (f x) /\
             forall j, j <> i -> get h' j = get h j.
Proof.
  intros E. unfold modify. rewrite E. eexists. split; [reflexivity|]. split; [apply put_length|].
  split; [apply get_put_same; eauto using get_lt|]. intros. apply get_put_other. congruence.
Qed.

Lemma make_ok h : exists h', make_array h = (h', length h) /\ length h' = S (length h) /\
  get h' (length h) = Some zero_cell /\ forall j, j < length h -> get h' j = get h j.
Proof.
  eexists. split; [reflexivity|]. split; [rewrite app_length; simpl; lia|]. unfold get. split.
  - rewrite nth_error_app2 by lia. now rewrite Nat.sub_diag.
  - intros. now rewrite nth_error_app1.
Qed.

Definition shape (x : cell) := (val x, next x, have_next x).
Definition link (h : heap) (c : nat) := option_map shape (get h c).

Definition agree (h h' : heap) (cs : list nat) := forall c, In c cs -> get h' c = get h c.
Definition lagree (h h' : heap) (cs : list nat) := forall c, In c cs -> link h' c = link h c.

Inductive seg (h : heap) : list nat -> list nat -> Prop :=
| seg_one c v n : link h c = Some (v, n, false) -> seg h [c] [v]
| seg_cons c v n cs l : link h c = Some (v, n, true) -> seg h (n :: cs) l ->
    seg h (c :: n :: cs) (v :: l).

Definition rep (h : heap) (a : nat) (l cs : list nat) : Prop :=
  NoDup cs /\ exists x, get h a = Some x /\ len x = length l /\
  match l with
  | [] => cs = [a]
  | _ => (exists cs', cs = a :: cs') /\ seg h cs l /\ tail x = last cs 0
  end.

Lemma agree_lagree h h' cs : agree h h' cs -> lagree h h' cs.
Proof. intros A c Hc. unfold link. now rewrite A. Qed.

Lemma seg_agree h h' cs l : lagree h h' cs -> seg h cs l -> seg h' cs l.
Proof.
  intros A H. induction H.
  - eapply seg_one. rewrite A by (now left). eassumption.
  - eapply seg_cons. rewrite A by (now left). eassumption.
    apply IHseg. intros k Hk. apply A. now right.
Qed.

Lemma seg_length h cs l : seg h cs l -> length cs = length l.
Proof. induction 1; simpl in *; auto. Qed.
Lemma seg_nonnil h cs l : seg h cs l -> cs <> [] /\ l <> [].
Proof. destruct 1; split; discriminate. Qed.
Lemma link_inv h c s : link h c = Some s -> exists x, get h c = Some x /\ shape x = s.
Proof. unfold link. destruct (get h c); simpl; intros E; inversion E; eauto. Qed.
Lemma link_get h c x : get h c = Some x -> link h c = Some (shape x).
Proof. unfold link. now intros ->. Qed.
Lemma seg_valid h cs l : seg h cs l -> forall c, In c cs -> c < length h.
Proof.
  induction 1; intros k [<-|Hk]; try now destruct Hk; eauto using get_lt.
  - apply link_inv in H as (? & ? & ?); eauto using get_lt.
  - apply link_inv in H as (? & ? & ?); eauto using get_lt.
  - auto.
Qed.

Lemma rep_agree h h' a l cs : agree h h' cs -> rep h a l cs -> rep h' a l cs.
Proof.
  intros A [N (x & Ex & El & R)]. split; [assumption|]. exists x.
  assert (In a cs) as Ha by (destruct l; [subst; now left|destruct R as [[? ->] _]; now left]).
  rewrite A by assumption. repeat split; auto.
  destruct l; [assumption|]. destruct R as (R1 & R2 & R3). repeat split; auto. eapply seg_agree; eauto using agree_lagree.
Qed.

Lemma rep_valid h a l cs : rep h a l cs -> forall c, In c cs -> c < length h.
Proof.
  intros [N (x & Ex & El & R)] c Hc. destruct l.
  - subst. destruct Hc as [<-|[]]. eauto using get_lt.
  - destruct R as (_ & R & _). eapply seg_valid; eauto.
Qed.
Lemma rep_head h a l cs : rep h a l cs -> In a cs.
Proof. intros [N (x & Ex & El & R)]. destruct l; [subst; now left|destruct R as [[? ->] _]; now left]. Qed.
Lemma rep_len h a l cs : rep h a l cs -> exists x, get h a = Some x /\ len x = length l.
Proof. intros [N (x & Ex & El & R)]. eauto. Qed.

Lemma nodup_bound (cs : list nat) n : NoDup cs -> (forall c, In c cs -> c < n) -> length cs <= n.
Proof.
  intros N H. rewrite <- (seq_length n 0). apply NoDup_incl_length; [assumption|].
  intros c Hc. apply in_seq. apply H in Hc. lia.
Qed.

Lemma rep_seg h a v l cs : rep h a (v :: l) cs -> seg h cs (v :: l) /\ length cs <= length h /\ exists cs', cs = a :: cs'.
Proof.
  intros R. pose proof (rep_valid _ _ _ _ R) as V. destruct R as [N (x & Ex & El & R1 & R2 & R3)].
  repeat split; auto. apply nodup_bound; auto.
Qed.

(** ** Walking *)
Section Walk.
Context {S : Type}.
Variable cb : heap -> S -> nat -> option (heap * S * iter).
Variable cs0 : list nat.
Variable h0 : heap.
Variable I : heap -> S -> list nat -> Prop.     (* after these elements *)
Variable Q : heap -> S -> bool -> Prop.

Lemma walk_rule : forall cs l, seg h0 cs l -> forall fuel done h st a,
  length cs <= fuel -> hd_error cs = Some a -> (forall c, In c cs -> In c cs0) ->
  (forall h st d v e, d ++ v :: e = done ++ l -> I h st d -> agree h0 h cs0 ->
     exists h' st' r, cb h st v = Some (h', st', r) /\
       match r with
       | ir_cont => I h' st' (d ++ [v]) /\ agree h0 h' cs0
       | ir_done => Q h' st' true
       | ir_err => Q h' st' false
       end) ->
  (forall h st, I h st (done ++ l) -> Q h st true) ->
  I h st done -> agree h0 h cs0 ->
  exists h' st' b, walk cb fuel h st a = Some (h', st', b) /\ Q h' st' b.
Proof.
  induction 1 as [c v n Ex|c v n cs l Ex Hs IH]; intros fuel done h st a Hf Ha Hin Hcb HQ HI HA;
    inversion Ha; subst a; destruct fuel as [|fuel]; cbn [length] in Hf; try lia; cbn [walk];
    apply link_inv in Ex as (x & Ex & Sx); unfold shape in Sx; injection Sx as Sv Sn Sh; subst v n.
  - assert (get h c = Some x) as E by (rewrite HA; [assumption|apply Hin; now left]).
    rewrite E. cbn [bind].
    destruct (Hcb h st done (val x) [] eq_refl HI HA) as (h' & st' & r & Ec & Hr). rewrite Ec. cbn [bind].
    destruct r; [|eauto 6|eauto 6].
    destruct Hr as [Hr1 Hr2].
    assert (get h' c = Some x) as -> by (rewrite Hr2; [assumption|apply Hin; now left]). cbn [bind].
    rewrite Sh. cbn [negb]. eexists _, _, _. split; [reflexivity|]. auto.
  - assert (get h c = Some x) as E by (rewrite HA; [assumption|apply Hin; now left]).
    rewrite E. cbn [bind].
    destruct (Hcb h st done (val x) l eq_refl HI HA) as (h' & st' & r & Ec & Hr). rewrite Ec. cbn [bind].
    destruct r; [|eauto 6|eauto 6].
    destruct Hr as [Hr1 Hr2].
    assert (get h' c = Some x) as -> by (rewrite Hr2; [assumption|apply Hin; now left]). cbn [bind].
    rewrite Sh. cbn [negb]. apply IH with (done := done ++ [val x]); auto; try (cbn [length]; lia).
    + intros k Hk. apply Hin. now right.
    + intros h1 st1 d v e E1. rewrite <- app_assoc in E1. eauto.
    + intros h1 st1. rewrite <- app_assoc. auto.
Qed.
End Walk.

Lemma foreach_rule {S} (cb : heap -> S -> nat -> option (heap * S * iter))
    (I : heap -> S -> list nat -> Prop) (Q : heap -> S -> bool -> Prop) h a l cs st :
  rep h a l cs ->
  (forall h' st d v e, d ++ v :: e = l -> I h' st d -> agree h h' cs ->
     exists h'' st' r, cb h' st v = Some (h'', st', r) /\
       match r with
       | ir_cont => I h'' st' (d ++ [v]) /\ agree h h'' cs
       | ir_done => Q h'' st' true
       | ir_err => Q h'' st' false
       end) ->
  (forall h st, I h st l -> Q h st true) ->
  I h st [] ->
  exists h' st' b, foreach cb h a st = Some (h', st', b) /\ Q h' st' b.
Proof.
  intros R Hcb HQ HI. unfold foreach. pose proof R as [N (x & Ex & El & _)]. rewrite Ex. cbn [bind].
  destruct l as [|v l].
  - rewrite El. cbn. eauto 6.
  - rewrite El. cbn [length Nat.eqb]. pose proof (rep_seg _ _ _ _ _ R) as (Hs & Hl & cs' & Ecs).
    eapply (walk_rule cb cs h I Q cs (v :: l) Hs (length h) [] h st a); eauto.
    + now rewrite Ecs.
    + intros c Hc. reflexivity.
Qed.

(** ** What a call may touch *)
Definition evolves (h h' : heap) (cs cs' : list nat) : Prop :=
  length h <= length h' /\
  (forall i, i < length h -> ~ In i cs -> get h' i = get h i) /\
  (forall i, In i cs' -> In i cs \/ length h <= i).

Lemma evolves_refl h cs : evolves h h cs cs.
Proof. repeat split; auto. Qed.

Lemma evolves_trans h1 h2 h3 a b c : evolves h1 h2 a b -> evolves h2 h3 b c -> evolves h1 h3 a c.
Proof.
  intros (L1 & E1 & F1) (L2 & E2 & F2). repeat split; [lia| |].
  - intros i Hi Hn. rewrite E2; auto; [lia|]. intros Hb. apply F1 in Hb as [?|?]; [contradiction|lia].
  - intros i Hi. apply F2 in Hi as [Hi|Hi]; [auto|right; lia].
Qed.

Lemma evolves_agree h h' cs cs' ds : evolves h h' cs cs' ->
  (forall c, In c ds -> c < length h /\ ~ In c cs) -> agree h h' ds.
Proof. intros (_ & E & _) H c Hc. apply H in Hc as [? ?]. auto. Qed.

Lemma rep_make h : rep (fst (make_array h)) (length h) [] [length h].
Proof.
  destruct (make_ok h) as (h' & E & L & G & O). rewrite E.
  split; [constructor; [easy|constructor]|]. exists zero_cell. auto.
Qed.
Lemma make_evolves h : evolves h (fst (make_array h)) [] [length h].
Proof.
  destruct (make_ok h) as (h' & E & L & G & O). rewrite E. simpl. repeat split.
  - lia.
  - intros. now apply O.
  - intros i [<-|[]]. right. lia.
Qed.

Lemma last_app_one {A} (l : list A) x d : last (l ++ [x]) d = x.
Proof. induction l as [|a l IH]; [reflexivity|]. simpl. destruct (l ++ [x]) eqn:E; [destruct l; discriminate|assumption]. Qed.
Lemma last_In {A} (l : list A) d : l <> [] -> In (last l d) l.
Proof. induction l as [|a [|b l] IH]; intros H; [congruence|now left|right; apply IH; discriminate]. Qed.
Lemma last_app_cons {A} (l m : list A) x d : last (l ++ x :: m) d = last (x :: m) d.
Proof.
  induction l as [|a l IH]; [reflexivity|]. rewrite <- IH. simpl. destruct (l ++ x :: m) eqn:E; [destruct l; discriminate|reflexivity].
Qed.

(** linking a chain behind another *)
Lemma seg_link h cs l c' h' v n : seg h cs l -> NoDup cs ->
  link h (last cs 0) = Some (v, n, false) ->
  (forall c, In c cs -> c <> last cs 0 -> link h' c = link h c) ->
  link h' (last cs 0) = Some (v, c', true) ->
  forall ds m, seg h' (c' :: ds) m -> seg h' (cs ++ c' :: ds) (l ++ m).
Proof.
  induction 1 as [c v1 n1 Ex|c v1 n1 cs l Ex Hs IH]; intros N Ey Ho Hl ds m Hm.
  - simpl in *. rewrite Ex in Ey. inversion Ey; subst. econstructor; eassumption.
  - change (last (c :: n1 :: cs) 0) with (last (n1 :: cs) 0) in *.
    inversion N as [|? ? Hni N']; subst.
    assert (c <> last (n1 :: cs) 0) as Hc.
    { intros E. apply Hni. rewrite E. apply last_In. discriminate. }
    cbn [app]. apply seg_cons; auto.
    + rewrite Ho; auto. now left.
    + apply IH; auto. intros k Hk. apply Ho. now right.
Qed.

Lemma seg_last h cs l : seg h cs l -> exists n, link h (last cs 0) = Some (last l 0, n, false).
Proof.
  induction 1 as [c v n Ex|c v n cs l Ex Hs IH]; [simpl; eauto|].
  change (last (c :: n :: cs) 0) with (last (n :: cs) 0).
  destruct IH as (y & E1). exists y. rewrite E1.
  destruct l; [now apply seg_nonnil in Hs as []|]. reflexivity.
Qed.

Lemma nodup_app (a b : list nat) : NoDup a -> NoDup b -> (forall x, In x a -> ~ In x b) -> NoDup (a ++ b).
Proof.
  induction a as [|x a IH]; intros Ha Hb Hd; [assumption|]. inversion Ha; subst. simpl. constructor.
  - rewrite in_app_iff. intros [?|?]; [contradiction|]. eapply Hd; [now left|eassumption].
  - apply IH; auto. intros y Hy. apply Hd. now right.
Qed.

Ltac getat H := let h := fresh "h" in let E := fresh "E" in let L := fresh "L" in let G := fresh "G" in let O := fresh "O" in
  match goal with |- context [modify ?x ?i ?f] => destruct (modify_ok x i _ f H) as (h & E & L & G & O); rewrite E; cbn [bind] end.

(** the pointer surgery shared by push and extend: append chain [b0 :: bs] (elements [m]) to a
    non-empty array [a] *)
Lemma splice h h' a w l cs b0 bs m x' :
  rep h a (w :: l) cs ->
  (forall i, i <> a -> i <> last cs 0 -> get h' i = get h i) -> length h' = length h ->
  (forall i, i <> last cs 0 -> link h' i = link h i) ->
  (forall v n, link h (last cs 0) = Some (v, n, false) -> link h' (last cs 0) = Some (v, b0, true)) ->
  get h' a = Some x' -> len x' = length ((w :: l) ++ m) -> tail x' = last (b0 :: bs) 0 ->
  seg h (b0 :: bs) m -> NoDup (b0 :: bs) -> (forall c, In c cs -> ~ In c (b0 :: bs)) ->
  rep h' a ((w :: l) ++ m) (cs ++ b0 :: bs) /\
  (forall i, ~ In i cs -> get h' i = get h i).
Proof.
  intros R G L K Kl Ga La Ta Sb Nb D. pose proof R as [N (x & Ex & El & [cs' Hcs] & Hs & Ht)].
  assert (Hl : In (last cs 0) cs) by (apply last_In; subst; discriminate).
  split.
  - split; [now apply nodup_app|]. exists x'. split; [assumption|]. split; [assumption|].
    cbn [app]. split; [subst; cbn [app]; eauto|]. split.
    + destruct (seg_last _ _ _ Hs) as (n & El1).
      change (w :: l ++ m) with ((w :: l) ++ m). eapply seg_link; [exact Hs|exact N|exact El1| |eapply Kl; exact El1|].
      * intros c _ Hc. now apply K.
      * eapply seg_agree; [|exact Sb]. intros c Hc. apply K. intros ->. eapply D; eauto.
    + now rewrite last_app_cons.
  - intros i Hi. apply G; intros ->; auto. apply Hi. subst. now left.
Qed.

Lemma put_evolves h h' (cs cs' : list nat) : length h' = length h ->
  (forall i, ~ In i cs -> get h' i = get h i) -> (forall i, In i cs' -> In i cs) -> evolves h h' cs cs'.
Proof. intros L G F. repeat split; [lia|auto|auto]. Qed.

(** ** push *)
Lemma push_spec h a l cs v : rep h a l cs ->
  exists h' cs', push h a v = Some h' /\ rep h' a (l ++ [v]) cs' /\ evolves h h' cs cs'.
Proof.
  intros R. pose proof R as [N (x & Ex & El & R')]. pose proof (get_lt _ _ _ Ex) as La. unfold push. rewrite Ex. cbn [bind].
  destruct l as [|w l].
  - rewrite El. cbn [length Nat.eqb]. subst cs.
    eexists _, [a]. split; [reflexivity|]. split; [|split; [|split]].
    + split; [assumption|]. eexists. rewrite get_put_same by assumption. split; [reflexivity|]. split; [reflexivity|].
      cbn [app]. split; [eauto|]. split; [|reflexivity].
      eapply (seg_one _ a v (next x)). unfold link. now rewrite get_put_same.
    + now rewrite put_length.
    + intros i Hi Hni. apply get_put_other. intros ->. apply Hni. now left.
    + auto.
  - rewrite El. cbn [length Nat.eqb].
    destruct (make_ok h) as (h1 & E1 & L1 & G1 & O1). rewrite E1.
    getat G1. rewrite O by lia. rewrite (O1 _ La), Ex. cbn [bind].
    destruct R' as ([cs' Hcs] & Hs & Ht).
    destruct (seg_last _ _ _ Hs) as (n & Ey). apply link_inv in Ey as (y & Ey & Sy). rewrite <- Ht in Ey.
    assert (Lt : tail x < length h) by (eauto using get_lt). inversion Sy as [[Sy1 Sy2 Sy3]].
    assert (Gy : get h0 (tail x) = Some y) by (rewrite O, O1 by lia; exact Ey).
    rewrite Gy. cbn [bind]. rewrite Sy3. cbn [negb assert bind].
    getat Gy.
    assert (exists x2, get h2 a = Some x2 /\ len x2 = len x /\ (a <> tail x -> x2 = x) /\ (a = tail x -> x2 = set_next (length h) (set_have_next true y))) as (x2 & Gx2 & Ln2 & Hx2 & Hx2').
    { destruct (Nat.eq_dec a (tail x)) as [->|E2].
      - eexists. split; [exact G0|]. assert (y = x) as -> by congruence. repeat split; auto. congruence.
      - exists x. rewrite O0, O, O1 by lia. repeat split; auto. congruence. }
    getat Gx2. getat G2. eexists h4, (cs ++ [length h]). split; [reflexivity|].
    assert (V := rep_valid _ _ _ _ R).
    assert (Nc : ~ In (length h) cs) by (intros Hc; apply V in Hc; lia).
    assert (T : forall i, i <> last cs 0 -> link h4 i = link h0 i).
    { intros i Hi. unfold link. destruct (Nat.eq_dec i a) as [->|Ha].
      - rewrite G3. rewrite O, O1 by lia. rewrite Ex. simpl. rewrite Ht in *. rewrite Hx2 by auto. reflexivity.
      - rewrite O3, O2, O0 by congruence. reflexivity. }
    assert (R0 : rep h0 a (w :: l) cs).
    { eapply rep_agree; [|exact R]. intros c Hc. apply V in Hc. rewrite O, O1 by lia. reflexivity. }
    destruct (splice h0 h4 a w l cs (length h) [] [v] (set_len (len (set_tail (length h) x2) + 1) (set_tail (length h) x2)) R0) as [RR EE].
    + intros i Ha Hi. rewrite O3, O2, O0 by congruence. reflexivity.
    + lia.
    + exact T.
    + intros v0 n0 K. rewrite <- Ht in K. rewrite (link_get _ _ _ Gy) in K. inversion K; subst v0 n0.
      rewrite <- Ht. unfold link. destruct (Nat.eq_dec (tail x) a) as [Ha|Ha].
      * rewrite Ha, G3. simpl. rewrite Hx2' by auto. reflexivity.
      * rewrite O3, O2, G0 by congruence. reflexivity.
    + exact G3.
    + simpl. rewrite app_length. simpl. rewrite Ln2, El. simpl. lia.
    + reflexivity.
    + econstructor. unfold link. rewrite G. reflexivity.
    + constructor; [easy|constructor].
    + intros c Hc [<-|[]]. contradiction.
    + split; [assumption|]. repeat split.
      * lia.
      * intros i Hi Hni. rewrite EE by assumption. now rewrite O, O1 by lia.
      * intros i Hi. apply in_app_or in Hi as [Hi|[<-|[]]]; auto.
Qed.

(** ** dup and extend *)
Lemma agree_refl h cs : agree h h cs.
Proof. intros c Hc. reflexivity. Qed.
Lemma agree_trans h1 h2 h3 cs : agree h1 h2 cs -> agree h2 h3 cs -> agree h1 h3 cs.
Proof. intros A B c Hc. rewrite B, A by assumption. reflexivity. Qed.

(** copying the elements of [b] to the end of another array *)
Lemma copy_into h b m ds a l cs : rep h b m ds -> rep h a l cs -> (forall c, In c ds -> ~ In c cs) ->
  exists h' r b' cs', foreach dup_iter h b a = Some (h', r, b') /\ rep h' a (l ++ m) cs' /\ evolves h h' cs cs'.
Proof.
  intros Rb Ra D.
  pose proof (rep_valid _ _ _ _ Rb) as V.
  destruct (foreach_rule dup_iter
     (fun h' st d => st = a /\ exists cs', rep h' a (l ++ d) cs' /\ evolves h h' cs cs')
     (fun h' st _ => exists cs', rep h' a (l ++ m) cs' /\ evolves h h' cs cs') h b m ds a Rb) as (h' & st' & b' & E & cs' & R & Ev).
  - intros h1 st d v e Em (-> & cs1 & R1 & E1) A.
    destruct (push_spec _ _ _ _ v R1) as (h2 & cs2 & P & R2 & E2).
    unfold dup_iter. rewrite P. cbn [bind]. eexists _, _, _. split; [reflexivity|]. cbn.
    split; [split; [reflexivity|]|].
    + exists cs2. rewrite app_assoc. split; [assumption|]. eapply evolves_trans; eassumption.
    + eapply agree_trans; [exact A|]. eapply evolves_agree; [exact E2|]. intros c Hc. split.
      * destruct E1 as (? & _). apply V in Hc. lia.
      * intros Hc1. destruct E1 as (? & _ & F). apply F in Hc1 as [Hc1|Hc1]; [eapply D; eauto|apply V in Hc; lia].
  - intros h1 st (_ & H). exact H.
  - split; [reflexivity|]. exists cs. rewrite app_nil_r. split; [assumption|apply evolves_refl].
  - eauto 8.
Qed.

Lemma dup_spec h a l cs : rep h a l cs ->
  exists h' r cs', dup h a = Some (h', r) /\ rep h' r l cs' /\ evolves h h' [] cs'.
Proof.
  intros R. unfold dup.
  pose proof (rep_make h) as Rm. pose proof (make_evolves h) as Em.
  destruct (make_array h) as [h1 r] eqn:E. assert (r = length h) as -> by (unfold make_array in E; congruence).
  simpl in Rm, Em. pose proof (rep_valid _ _ _ _ R) as V.
  assert (R1 : rep h1 a l cs).
  { eapply rep_agree; [|exact R]. eapply evolves_agree; [exact Em|]. intros c Hc. split; [now apply V|easy]. }
  destruct (copy_into h1 a l cs (length h) [] [length h] R1 Rm) as (h2 & r2 & b2 & cs2 & F & R2 & E2).
  { intros c Hc [<-|[]]. apply V in Hc. lia. }
  rewrite F. cbn [bind]. eexists _, _, cs2. split; [reflexivity|]. split; [assumption|]. eapply evolves_trans; eassumption.
Qed.

Lemma extend_nodup_spec h a l cs b m ds : rep h a l cs -> rep h b m ds -> (forall c, In c ds -> ~ In c cs) ->
  exists h' cs', extend_nodup h a b = Some h' /\ rep h' a (l ++ m) cs' /\ evolves h h' (cs ++ ds) cs'.
Proof.
  intros Ra Rb D. unfold extend_nodup.
  pose proof Rb as [Nb (y & Ey & Ly & Rb')]. rewrite Ey. cbn [bind]. rewrite Ly.
  destruct m as [|m0 m].
  { cbn [length Nat.eqb]. exists h, cs. rewrite app_nil_r. split; [reflexivity|]. split; [assumption|].
    apply put_evolves; auto. intros. apply in_or_app. now left. }
  cbn [length Nat.eqb].
  pose proof Ra as [Na (x & Ex & Lx & Ra')]. rewrite Ex. cbn [bind]. rewrite Lx.
  destruct l as [|l0 l].
  { cbn [length Nat.eqb]. destruct (copy_into h b (m0 :: m) ds a [] cs Rb Ra D) as (h' & r & b' & cs' & E & R & Ev).
    rewrite E. cbn [bind]. exists h', cs'. split; [reflexivity|]. split; [assumption|].
    destruct Ev as (L & O & F). repeat split; [assumption| |].
    - intros i Hi Hn. apply O; auto. intros ?. apply Hn. apply in_or_app. now left.
    - intros i Hi. apply F in Hi as [?|?]; [left; apply in_or_app; now left|now right]. }
  cbn [length Nat.eqb].
  destruct Ra' as ([cs' Hcs] & Hs & Ht). destruct Rb' as ([ds' Hds] & Hsb & Htb).
  destruct (seg_last _ _ _ Hs) as (n & Et). apply link_inv in Et as (t & Et & St). rewrite <- Ht in Et.
  inversion St as [[St1 St2 St3]]. rewrite Et. cbn [bind]. rewrite St3. cbn [negb assert bind].
  getat Et.
  assert (Ha : In a cs) by (subst; now left). assert (Hb : In b ds) by (subst; now left).
  assert (Htl : In (tail x) cs) by (rewrite Ht; apply last_In; subst; discriminate).
  assert (b <> tail x) by (intros ->; eapply D; eauto). assert (b <> a) by (intros ->; eapply D; eauto).
  assert (Gb : get h0 b = Some y) by (rewrite O by assumption; exact Ey). rewrite Gb. cbn [bind].
  assert (exists x2, get h0 a = Some x2 /\ len x2 = len x /\ (a <> tail x -> x2 = x) /\ (a = tail x -> x2 = set_next b (set_have_next true t))) as (x2 & Gx2 & Ln2 & Hx2 & Hx2').
  { destruct (Nat.eq_dec a (tail x)) as [Ea|Ea].
    - eexists. rewrite Ea. split; [exact G|]. assert (t = x) as -> by congruence. repeat split; auto. congruence.
    - exists x. rewrite O by lia. repeat split; auto. congruence. }
  getat Gx2. assert (Gb1 : get h1 b = Some y) by (rewrite O0 by assumption; exact Gb). rewrite Gb1. cbn [bind].
  getat G0. exists h2, (cs ++ ds). split; [reflexivity|].
  destruct (splice h h2 a l0 l cs b ds' (m0 :: m) (set_len (len (set_tail (tail y) x2) + len y) (set_tail (tail y) x2)) Ra) as [RR EE].
  - intros i Hi Hil. rewrite <- Ht in Hil. rewrite O1, O0, O by congruence. reflexivity.
  - lia.
  - intros i Hi. rewrite <- Ht in Hi. unfold link. destruct (Nat.eq_dec i a) as [->|Hia].
    + rewrite G1, Ex. simpl. rewrite Hx2 by auto. reflexivity.
    + rewrite O1, O0, O by congruence. reflexivity.
  - intros v0 n0 K. rewrite <- Ht in *. rewrite (link_get _ _ _ Et) in K. inversion K; subst v0 n0.
    unfold link. destruct (Nat.eq_dec (tail x) a) as [Hta|Hta].
    + rewrite Hta, G1. simpl. rewrite Hx2' by auto. reflexivity.
    + rewrite O1, O0, G by congruence. reflexivity.
  - exact G1.
  - simpl. rewrite app_length. simpl in *. lia.
  - simpl. rewrite Htb, Hds. reflexivity.
  - now rewrite <- Hds.
  - now rewrite <- Hds.
  - intros c Hc Hc2. rewrite <- Hds in Hc2. eapply D; eauto.
  - rewrite <- Hds in RR. split; [assumption|]. apply put_evolves; [lia| |auto].
    intros i Hi. apply EE. intros ?. apply Hi. apply in_or_app. now left.
Qed.

Lemma extend_spec h a l cs b m ds : rep h a l cs -> rep h b m ds ->
  exists h' cs', extend h a b = Some h' /\ rep h' a (l ++ m) cs' /\ evolves h h' cs cs'.
Proof.
  intros Ra Rb. unfold extend.
  destruct (dup_spec _ _ _ _ Rb) as (h1 & r & es & E & R1 & Ev). rewrite E. cbn [bind].
  pose proof (rep_valid _ _ _ _ Ra) as V.
  assert (Ra1 : rep h1 a l cs).
  { eapply rep_agree; [|exact Ra]. eapply evolves_agree; [exact Ev|]. intros c Hc. split; [now apply V|easy]. }
  destruct Ev as (L & O & F).
  destruct (extend_nodup_spec h1 a l cs r m es Ra1 R1) as (h2 & cs2 & E2 & R2 & L2 & O2 & F2).
  { intros c Hc Hc2. apply F in Hc as [[]|Hc]. apply V in Hc2. lia. }
  exists h2, cs2. split; [assumption|]. split; [assumption|]. repeat split; [lia| |].
  - intros i Hi Hn. rewrite O2; [apply O; auto; easy|lia|]. intros Hc. apply in_app_or in Hc as [Hc|Hc]; [contradiction|].
    apply F in Hc as [[]|Hc]. lia.
  - intros i Hi. apply F2 in Hi as [Hi|Hi]; [|right; lia]. apply in_app_or in Hi as [Hi|Hi]; [now left|].
    apply F in Hi as [[]|Hi]. now right.
Qed.

Lemma prepend_spec h a l cs v : rep h a l cs ->
  exists h' p cs', prepend h a v = Some (h', p) /\ rep h' p (v :: l) cs' /\ evolves h h' cs cs'.
Proof.
  intros R. unfold prepend.
  pose proof (rep_make h) as Rm. pose proof (make_evolves h) as Em.
  destruct (make_array h) as [h1 r] eqn:E. assert (r = length h) as -> by (unfold make_array in E; congruence).
  simpl in Rm, Em. pose proof (rep_valid _ _ _ _ R) as V.
  destruct (push_spec _ _ _ _ v Rm) as (h2 & cs2 & P & R2 & E2). rewrite P. cbn [bind app] in *.
  assert (E02 : evolves h h2 [] cs2) by (eapply evolves_trans; eassumption).
  assert (Ra : rep h2 a l cs).
  { eapply rep_agree; [|exact R]. eapply evolves_agree; [exact E02|]. intros c Hc. split; [now apply V|easy]. }
  destruct E02 as (L & O & F).
  destruct (extend_nodup_spec h2 (length h) [v] cs2 a l cs R2 Ra) as (h3 & cs3 & E3 & R3 & L3 & O3 & F3).
  { intros c Hc Hc2. apply F in Hc2 as [[]|Hc2]. apply V in Hc. lia. }
  rewrite E3. cbn [bind]. exists h3, (length h), cs3. split; [reflexivity|]. split; [assumption|]. repeat split; [lia| |].
  - intros i Hi Hn. rewrite O3; [apply O; auto; easy|lia|]. intros Hc. apply in_app_or in Hc as [Hc|Hc]; [|contradiction].
    apply F in Hc as [[]|Hc]. lia.
  - intros i Hi. apply F3 in Hi as [Hi|Hi]; [|right; lia]. apply in_app_or in Hi as [Hi|Hi]; [|now left].
    apply F in Hi as [[]|Hi]. now right.
Qed.

(** ** Reading *)
Lemma pure_rule {S} (cb : heap -> S -> nat -> option (heap * S * iter)) (I : S -> list nat -> Prop) (Q : S -> bool -> Prop) h a l cs st :
  rep h a l cs ->
  (forall st d v e, d ++ v :: e = l -> I st d ->
     exists st' r, cb h st v = Some (h, st', r) /\
       match r with ir_cont => I st' (d ++ [v]) | ir_done => Q st' true | ir_err => Q st' false end) ->
  (forall st, I st l -> Q st true) -> I st [] ->
  exists st' b, foreach cb h a st = Some (h, st', b) /\ Q st' b.
Proof.
  intros R Hcb HQ HI.
  destruct (foreach_rule cb (fun h' st d => h' = h /\ I st d) (fun h' st b => h' = h /\ Q st b) h a l cs st R) as (h' & st' & b & E & -> & H).
  - intros h' st1 d v e El (-> & H) _. destruct (Hcb st1 d v e El H) as (st2 & r & Ec & Hr).
    exists h, st2, r. split; [assumption|]. destruct r; auto. split; [auto|apply agree_refl].
  - intros h1 st1 (-> & H). auto.
  - auto.
  - eauto.
Qed.

Lemma elements_spec h a l cs : rep h a l cs -> elements h a = Some l.
Proof.
  intros R. unfold elements.
  destruct (pure_rule elements_iter (fun st d => st = d) (fun st _ => st = l) h a l cs [] R) as (st & b & E & ->); auto.
  - intros st d v e El ->. unfold elements_iter. eexists _, _. split; [reflexivity|]. reflexivity.
  - rewrite E. reflexivity.
Qed.

Lemma length_spec h a l cs : rep h a l cs -> length_of h a = Some (length l).
Proof. intros R. destruct (rep_len _ _ _ _ R) as (x & E & L). unfold length_of. rewrite E. cbn. congruence. Qed.

Lemma index_spec h a l cs i n : rep h a l cs -> nonneg_pos (length l) i = Some n -> index h a i = nth_error l n.
Proof.
  intros R P. unfold index. destruct (rep_len _ _ _ _ R) as (x & E & L). rewrite E. cbn [bind]. rewrite L.
  unfold nonneg_pos in P. destruct ((0 <=? i) && (i <? Z.of_nat (length l)))%Z eqn:B; [|discriminate].
  injection P as P. cbn [assert bind]. rewrite P.
  assert (n < length l) by (apply andb_prop in B as [B1 B2]; apply Z.leb_le in B1; apply Z.ltb_lt in B2; lia).
  destruct (pure_rule (index_iter n) (fun st d => st = (length d, None) /\ length d <= n) (fun st _ => snd st = nth_error l n) h a l cs (0, None) R) as (st & b & Ef & Q).
  - intros st d v e El (-> & Hd). unfold index_iter. destruct (Nat.eqb_spec (length d) n) as [<-|Hn].
    + eexists _, _. split; [reflexivity|]. cbn. rewrite <- El, nth_error_app2, Nat.sub_diag by lia. reflexivity.
    + eexists _, _. split; [reflexivity|]. cbn. rewrite app_length. cbn. split; [reflexivity|lia].
  - intros st (-> & Hd). lia.
  - split; [reflexivity|]. cbn. lia.
  - rewrite Ef. cbn [bind]. destruct st as [k r]. cbn [snd] in Q. subst r.
    destruct (nth_error l n) eqn:En; [reflexivity|]. apply nth_error_None in En. lia.
Qed.

Lemma get_tail_spec h a w l cs : rep h a (w :: l) cs -> get_tail h a = Some (last (w :: l) 0).
Proof.
  intros [N (x & Ex & El & _ & Hs & Ht)]. unfold get_tail. rewrite Ex. cbn [bind].
  destruct (seg_last _ _ _ Hs) as (n & E). apply link_inv in E as (y & Ey & Sy). rewrite Ht, Ey. cbn [bind].
  unfold shape in Sy. congruence.
Qed.

Section El.
Variable equal : nat -> nat -> bool.
Variable str_of : nat -> option bytes.

Lemma in_spec h a l cs v : rep h a l cs -> array_in equal h a v = Some (existsb (equal v) l).
Proof.
  intros R. unfold array_in, index_of.
  destruct (pure_rule (index_of_iter equal v) (fun st d => snd st = false /\ existsb (equal v) d = false) (fun st _ => snd st = existsb (equal v) l) h a l cs (0, false) R) as ([k r] & b & Ef & Q); auto.
  - intros [k r] d u e El (Hs & Hd). cbn in Hs. subst r. unfold index_of_iter. destruct (equal v u) eqn:Eu.
    + eexists _, _. split; [reflexivity|]. cbn. rewrite <- El, existsb_app. cbn. now rewrite Hd, Eu.
    + eexists _, _. split; [reflexivity|]. cbn. rewrite existsb_app. cbn. now rewrite Hd, Eu.
  - intros st [-> H]. auto.
  - rewrite Ef. cbn [bind]. cbn in Q. now subst r.
Qed.

Definition strings (l : list nat) := strings_of str_of l.

Lemma strings_app l m : strings (l ++ m) = do a <- strings l; do b <- strings m; Some (a ++ b).
Proof.
  unfold strings. induction l as [|v l IH]; cbn [app strings_of bind].
  - destruct (strings_of str_of m); reflexivity.
  - destruct (str_of v); [|reflexivity]. cbn [bind]. rewrite IH.
    destruct (strings_of str_of l); [|reflexivity]. cbn [bind]. destruct (strings_of str_of m); reflexivity.
Qed.

Lemma joinb_snoc sep ss s : ss <> [] -> joinb sep (ss ++ [s]) = joinb sep ss ++ sep ++ s.
Proof.
  induction ss as [|a ss IH]; intros H; [congruence|]. destruct ss as [|b ss]; [reflexivity|].
  change ((a :: b :: ss) ++ [s]) with (a :: b :: (ss ++ [s])).
  change (joinb sep (a :: b :: (ss ++ [s]))) with (a ++ sep ++ joinb sep ((b :: ss) ++ [s])).
  rewrite IH by discriminate. change (joinb sep (a :: b :: ss)) with (a ++ sep ++ joinb sep (b :: ss)).
  now rewrite <- !app_assoc.
Qed.

Lemma join_spec h a l cs sep : rep h a l cs -> join str_of h a sep = Some (join_list str_of l sep).
Proof.
  intros R. unfold join. destruct (rep_len _ _ _ _ R) as (x & E & L). rewrite E. cbn [bind]. rewrite L.
  destruct (pure_rule (join_iter str_of sep (length l))
     (fun st d => fst st = length d /\ exists ss, strings d = Some ss /\ length ss = length d /\
        snd st = joinb sep ss ++ (if (length d =? 0) || (length d =? length l) then [] else sep))
     (fun st b => if b : bool then join_list str_of l sep = Some (snd st) else join_list str_of l sep = None) h a l cs (0, []) R) as ([k r] & b & Ef & Q).
  - intros [k r] d v e El (Hk & ss & Hss & Hl & Hr). cbn [fst snd] in *. subst k r. unfold join_iter.
    destruct (str_of v) as [s|] eqn:Es.
    + eexists _, _. split; [reflexivity|]. cbn [fst snd]. rewrite app_length. cbn [length]. split; [reflexivity|].
      exists (ss ++ [s]). split; [|split].
      * rewrite strings_app, Hss. cbn [bind]. unfold strings. cbn [strings_of bind]. rewrite Es. reflexivity.
      * rewrite app_length. cbn. lia.
      * assert (Lt : length d < length l) by (rewrite <- El, app_length; cbn; lia).
        replace (length d + 1 =? 0) with false by (symmetry; apply Nat.eqb_neq; lia). cbn [orb].
        assert (T : (if length d <? length l - 1 then sep else []) = (if length d + 1 =? length l then [] else sep)).
        { destruct (Nat.ltb_spec (length d) (length l - 1)); destruct (Nat.eqb_spec (length d + 1) (length l)); try reflexivity; lia. }
        rewrite T. destruct d as [|d0 d].
        -- destruct ss; [|discriminate]. reflexivity.
        -- destruct (Nat.eqb_spec (length (d0 :: d)) 0); [discriminate|]. destruct (Nat.eqb_spec (length (d0 :: d)) (length l)); [lia|]. cbn [orb].
           rewrite joinb_snoc by (destruct ss; discriminate). now rewrite <- !app_assoc.
    + eexists _, _. split; [reflexivity|]. cbn. unfold join_list. fold (strings l). rewrite <- El, strings_app, Hss. cbn [bind].
      unfold strings. cbn [strings_of bind]. rewrite Es. reflexivity.
  - intros [k r] (_ & ss & Hss & Hl & Hr). cbn [fst snd] in *. unfold join_list. fold (strings l). rewrite Hss. cbn [bind].
    rewrite Hr, Nat.eqb_refl, orb_true_r, app_nil_r. reflexivity.
  - cbn. split; [reflexivity|]. exists []. auto.
  - rewrite Ef. cbn [bind]. destruct b; cbn [snd] in Q; now rewrite Q.
Qed.

(** ** dedup *)
Definition dedup_step (acc : list nat) (v : nat) := if existsb (equal v) acc then acc else acc ++ [v].

Lemma dedup_step_mono acc v w : existsb (equal w) acc = true -> existsb (equal w) (dedup_step acc v) = true.
Proof. intros H. unfold dedup_step. destruct (existsb (equal v) acc); [assumption|]. rewrite existsb_app, H. reflexivity. Qed.
Lemma dedup_step_self acc v : equal v v = true -> existsb (equal v) (dedup_step acc v) = true.
Proof. intros H. unfold dedup_step. destruct (existsb (equal v) acc) eqn:E; [assumption|]. rewrite existsb_app. cbn. rewrite H. now rewrite orb_true_r. Qed.

Lemma dedup_step_in acc v : existsb (equal v) acc = true -> dedup_step acc v = acc.
Proof. unfold dedup_step. now intros ->. Qed.

Lemma dedup_spec h a l cs : (forall v, equal v v = true) -> rep h a l cs ->
  exists h' r cs', dedup equal h a = Some (h', r) /\ rep h' r (dedup_list equal l) cs' /\ evolves h h' [] cs'.
Proof.
  intros Refl R. unfold dedup.
  pose proof (rep_make h) as Rm. pose proof (make_evolves h) as Em.
  destruct (make_array h) as [h1 r] eqn:E. assert (r = length h) as -> by (unfold make_array in E; congruence).
  simpl in Rm, Em. pose proof (rep_valid _ _ _ _ R) as V.
  assert (R1 : rep h1 a l cs).
  { eapply rep_agree; [|exact R]. eapply evolves_agree; [exact Em|]. intros c Hc. split; [now apply V|easy]. }
  destruct (foreach_rule (dedup_iter equal)
     (fun h' st d => fst st = length h /\ (forall v, In v (snd st) -> existsb (equal v) (fold_left dedup_step d []) = true) /\
        exists cs', rep h' (length h) (fold_left dedup_step d []) cs' /\ evolves h1 h' [length h] cs')
     (fun h' st _ => exists cs', rep h' (length h) (dedup_list equal l) cs' /\ evolves h1 h' [length h] cs')
     h1 a l cs (length h, []) R1) as (h2 & st' & b' & F & cs2 & R2 & E2).
  - intros h2 [res seen] d v e El (Hr & Hseen & cs2 & R2 & E2) A. cbn [fst snd] in *. subst res. unfold dedup_iter.
    destruct (existsb (Nat.eqb v) seen) eqn:Es.
    + eexists _, _, _. split; [reflexivity|]. cbn [fst snd]. rewrite fold_left_app. cbn [fold_left].
      apply existsb_exists in Es as (u & Hu & Eu). apply Nat.eqb_eq in Eu. subst u.
      assert (dedup_step (fold_left dedup_step d []) v = fold_left dedup_step d []) as -> by (apply dedup_step_in; auto).
      eauto 8.
    + rewrite (in_spec _ _ _ _ v R2). cbn [bind].
      assert (exists h3 cs3, (if negb (existsb (equal v) (fold_left dedup_step d [])) then push h2 (length h) v else Some h2) = Some h3 /\
                rep h3 (length h) (dedup_step (fold_left dedup_step d []) v) cs3 /\ evolves h2 h3 cs2 cs3) as (h3 & cs3 & P & R3 & E3).
      { remember (fold_left dedup_step d []) as acc. unfold dedup_step. destruct (existsb (equal v) acc); cbn [negb].
        - exists h2, cs2. auto using evolves_refl.
        - apply push_spec. assumption. }
      rewrite P. cbn [bind]. eexists _, _, _. split; [reflexivity|]. cbn [fst snd]. rewrite fold_left_app. cbn [fold_left].
      split; [split; [reflexivity|split]|].
      * intros u [<-|Hu]; [now apply dedup_step_self|]. apply dedup_step_mono. auto.
      * exists cs3. split; [assumption|]. eapply evolves_trans; eassumption.
      * eapply agree_trans; [exact A|]. eapply evolves_agree; [exact E3|]. intros c Hc. pose proof (V c Hc). destruct E2 as (L2 & _ & F2). destruct Em as (Lm & _ & _). split; [lia|].
        intros Hc2. apply F2 in Hc2 as [[<-|[]]|Hc2]; lia.
  - intros h2 st (_ & _ & H). exact H.
  - cbn. split; [reflexivity|]. split; [easy|]. exists [length h]. split; [assumption|apply evolves_refl].
  - rewrite F. cbn [bind]. eexists _, _, cs2. split; [reflexivity|]. split; [assumption|]. eapply evolves_trans; eassumption.
Qed.
End El.

(** ** slice *)
Lemma firstn_snoc {A} (l d : list A) v e : d ++ v :: e = l -> firstn (S (length d)) l = d ++ [v].
Proof. intros <-. rewrite firstn_app. rewrite firstn_all2 by lia. replace (S (length d) - length d) with 1 by lia. reflexivity. Qed.

Lemma slice_spec h a l cs i0 i1 n0 n1 : rep h a l cs ->
  pos (length l) i0 = Some n0 -> pos (length l) i1 = Some n1 ->
  exists h' r cs', array_slice h a i0 i1 = Some (h', r) /\ rep h' r (slice_list l n0 n1) cs' /\ evolves h h' [] cs'.
Proof.
  intros R P0 P1. unfold array_slice. destruct (rep_len _ _ _ _ R) as (x & E & L). rewrite E. cbn [bind]. rewrite L.
  assert (B : forall i n, pos (length l) i = Some n -> bounds_adjust (Z.of_nat (length l)) i = (Z.of_nat n, true) /\ n < length l).
  { clear. intros i n. unfold pos, bounds_adjust. destruct (Z.ltb_spec i 0); destruct (Z.leb_spec 0 i); try lia; cbn [andb].
    - destruct (Z.leb_spec (- Z.of_nat (length l)) i); [|discriminate]. intros [= <-]. split; [|lia]. f_equal; [lia|apply Z.ltb_lt; lia].
    - destruct (Z.ltb_spec i (Z.of_nat (length l))); [|discriminate]. intros [= <-]. split; [|lia]. f_equal; lia. }
  destruct (B _ _ P0) as [B0 L0]. destruct (B _ _ P1) as [B1 L1]. rewrite B0, B1. cbn [assert bind andb].
  pose proof (rep_make h) as Rm. pose proof (make_evolves h) as Em.
  destruct (make_array h) as [h1 r] eqn:Emk. assert (r = length h) as -> by (unfold make_array in Emk; congruence).
  simpl in Rm, Em. pose proof (rep_valid _ _ _ _ R) as V.
  assert (R1 : rep h1 a l cs).
  { eapply rep_agree; [|exact R]. eapply evolves_agree; [exact Em|]. intros c Hc. split; [now apply V|easy]. }
  destruct (foreach_rule (slice_iter (Z.of_nat n0) (Z.of_nat n1))
     (fun h' st d => st = (Z.of_nat (length d), length h) /\ length d <= n1 /\
        exists cs', rep h' (length h) (skipn n0 d) cs' /\ evolves h1 h' [length h] cs')
     (fun h' st _ => exists cs', rep h' (length h) (slice_list l n0 n1) cs' /\ evolves h1 h' [length h] cs')
     h1 a l cs (0%Z, length h) R1) as (h2 & st' & b' & F & cs2 & R2 & E2).
  - intros h2 st d v e El (-> & Hd & cs2 & R2 & E2) A. unfold slice_iter.
    assert (exists h3 cs3, (if (Z.of_nat n0 <=? Z.of_nat (length d))%Z then push h2 (length h) v else Some h2) = Some h3 /\
              rep h3 (length h) (skipn n0 (d ++ [v])) cs3 /\ evolves h2 h3 cs2 cs3) as (h3 & cs3 & P & R3 & E3).
    { rewrite skipn_app. destruct (Z.leb_spec (Z.of_nat n0) (Z.of_nat (length d))).
      - replace (n0 - length d) with 0 by lia. cbn [skipn]. now apply push_spec.
      - exists h2, cs2. split; [reflexivity|]. split; [|apply evolves_refl].
        rewrite (skipn_all2 [v]) by (cbn; lia). rewrite app_nil_r. assumption. }
    rewrite P. cbn [bind].
    assert (Ev : evolves h1 h3 [length h] cs3) by (eapply evolves_trans; eassumption).
    destruct (Z.ltb_spec (Z.of_nat n1) (Z.of_nat (length d) + 1)).
    + eexists _, _, _. split; [reflexivity|]. cbn. exists cs3. split; [|assumption].
      assert (n1 = length d) by lia. subst n1. unfold slice_list.
      replace (firstn (length d + 1 - n0) (skipn n0 l)) with (skipn n0 (d ++ [v])); [assumption|].
      rewrite firstn_skipn_comm. rewrite <- (firstn_snoc l d v e El).
      destruct (Nat.le_gt_cases n0 (length d)).
      * f_equal. f_equal. lia.
      * rewrite !skipn_all2; auto; rewrite firstn_length; lia.
    + eexists _, _, _. split; [reflexivity|]. cbn. split; [split; [f_equal; rewrite app_length; cbn; lia|split; [rewrite app_length; cbn; lia|]]|].
      * eauto.
      * eapply agree_trans; [exact A|]. eapply evolves_agree; [exact E3|]. intros c Hc. pose proof (V c Hc). destruct E2 as (L2 & _ & F2). destruct Em as (Lm & _ & _). split; [lia|].
        intros Hc2. apply F2 in Hc2 as [[<-|[]]|Hc2]; lia.
  - intros h2 st (_ & Hl & _). lia.
  - cbn. split; [reflexivity|]. split; [lia|]. exists [length h]. rewrite skipn_nil. split; [assumption|apply evolves_refl].
  - rewrite F. cbn [bind]. eexists _, _, cs2. split; [reflexivity|]. split; [assumption|]. eapply evolves_trans; eassumption.
Qed.

(** ** set *)
Lemma set_nth_cons x l k v : set_nth (x :: l) (S k) v = x :: set_nth l k v.
Proof. reflexivity. Qed.
Lemma del_nth_cons x l k : del_nth (x :: l) (S k) = x :: del_nth l k.
Proof. reflexivity. Qed.

Lemma seg_nth h cs l k c : seg h cs l -> nth_error cs k = Some c ->
  exists v n, link h c = Some (v, n, negb (S k =? length l)) /\ (S k < length l -> nth_error cs (S k) = Some n).
Proof.
  intros H. revert k. induction H as [d v n E|d v n cs l E Hs IH]; intros k Hk.
  - destruct k as [|k]; [|destruct k; discriminate]. injection Hk as <-. exists v, n. cbn. split; [assumption|lia].
  - destruct k as [|k].
    + injection Hk as <-. exists v, n. split; [|reflexivity].
      destruct (seg_nonnil _ _ _ Hs) as [_ Hl]. destruct l; [congruence|]. assumption.
    + destruct (IH k Hk) as (w & m & E1 & E2). exists w, m. cbn [length]. split; [exact E1|]. intros. apply E2. lia.
Qed.

Lemma seg_set h h' cs l k c v w n b : seg h cs l -> NoDup cs -> nth_error cs k = Some c ->
  (forall i, i <> c -> link h' i = link h i) ->
  link h c = Some (w, n, b) -> link h' c = Some (v, n, b) -> seg h' cs (set_nth l k v).
Proof.
  intros H. revert k. induction H as [d v1 n1 E|d v1 n1 cs l E Hs IH]; intros k N Hk O L L'.
  - destruct k as [|k]; [|destruct k; discriminate]. injection Hk as <-. rewrite E in L. injection L as -> -> <-.
    cbn. eapply seg_one. exact L'.
  - inversion N as [|? ? Hni N']; subst. destruct k as [|k].
    + injection Hk as <-. rewrite E in L. injection L as -> -> <-. change (set_nth (w :: l) 0 v) with (v :: l).
      apply seg_cons; [assumption|]. eapply seg_agree; [|exact Hs]. intros c Hc. apply O. intros ->. contradiction.
    + rewrite set_nth_cons. cbn in Hk. apply seg_cons.
      * rewrite O; [assumption|]. intros ->. apply nth_error_In in Hk. contradiction.
      * eauto.
Qed.

Lemma set_loop_spec h v : forall cs l, seg h cs l -> forall fuel a j i k c, hd_error cs = Some a -> length cs <= fuel ->
  i = j + k -> nth_error cs k = Some c -> set_loop fuel h a j i v = modify h c (set_val v).
Proof.
  induction 1 as [d v1 n1 E|d v1 n1 cs l E Hs IH]; intros fuel a j i k c Ha Hf Hi Hk; injection Ha as <-;
    (destruct fuel as [|fuel]; [cbn in Hf; lia|]); cbn [set_loop].
  - destruct k as [|k]; [|destruct k; discriminate]. injection Hk as <-. rewrite Nat.add_0_r in Hi. subst. now rewrite Nat.eqb_refl.
  - destruct k as [|k].
    + injection Hk as <-. rewrite Nat.add_0_r in Hi. subst. now rewrite Nat.eqb_refl.
    + destruct (Nat.eqb_spec j i); [lia|]. apply link_inv in E as (x & Ex & Sx). unfold shape in Sx. injection Sx as Sv Sn Sh.
      rewrite Ex. cbn [bind]. rewrite Sh. cbn [assert bind]. rewrite Sn. eapply IH; try reflexivity; eauto; cbn [length] in *; lia.
Qed.

Lemma nonneg_pos_spec n i k : nonneg_pos n i = Some k -> ((0 <=? i) && (i <? Z.of_nat n))%Z = true /\ i = Z.of_nat k /\ k < n.
Proof.
  unfold nonneg_pos. destruct (Z.leb_spec 0 i); destruct (Z.ltb_spec i (Z.of_nat n)); cbn; try discriminate.
  intros [= <-]. repeat split; lia.
Qed.

Lemma set_spec h a l cs i k v : rep h a l cs -> nonneg_pos (length l) i = Some k ->
  exists h' cs', array_set h a i v = Some h' /\ rep h' a (set_nth l k v) cs' /\ evolves h h' cs cs'.
Proof.
  intros R P. apply nonneg_pos_spec in P as (B & -> & Hk). unfold array_set.
  pose proof R as [N (x & Ex & El & R')]. rewrite Ex. cbn [bind]. rewrite El, B. cbn [assert bind]. rewrite Nat2Z.id.
  destruct l as [|w l]; [cbn in Hk; lia|]. destruct (rep_seg _ _ _ _ _ R) as (Hs & Hl & cs' & Hcs).
  pose proof (seg_length _ _ _ Hs) as Ls.
  destruct (nth_error cs k) as [c|] eqn:Ec; [|apply nth_error_None in Ec; lia].
  rewrite (set_loop_spec h v cs _ Hs (length h) a 0 k k c) by (auto; now rewrite Hcs).
  destruct (seg_nth _ _ _ _ _ Hs Ec) as (u & n & Lc & _).
  pose proof Lc as Lc'. apply link_inv in Lc' as (y & Ey & Sy).
  destruct (modify_ok h c y (set_val v) Ey) as (h' & E & L & G & O). exists h', cs. split; [assumption|].
  assert (Hsl : length (set_nth (w :: l) k v) = length (w :: l)).
  { unfold set_nth. rewrite app_length. cbn [length]. rewrite firstn_length, skipn_length. cbn [length] in *. lia. }
  assert (exists x', get h' a = Some x' /\ len x' = len x /\ tail x' = tail x) as (x' & Gx & Lx & Tx).
  { destruct (Nat.eq_dec a c) as [->|Hac].
    - rewrite G. replace y with x by congruence. eexists. split; [reflexivity|]. auto.
    - rewrite O by assumption. eauto. }
  split.
  - split; [assumption|]. exists x'. split; [assumption|]. split; [now rewrite Lx, El, Hsl|].
    destruct (set_nth (w :: l) k v) eqn:Esn; [discriminate|]. rewrite <- Esn. split; [eauto|]. split.
    + eapply seg_set; [exact Hs|assumption|exact Ec| |exact Lc|].
      * intros i0 Hi. unfold link. now rewrite O.
      * unfold link. rewrite G. unfold shape in *. cbn [option_map val next have_next set_val]. congruence.
    + rewrite Tx. apply R'.
  - apply put_evolves; auto. intros i0 Hi. apply O. intros ->. apply Hi. eapply nth_error_In; eauto.
Qed.

(** ** del *)
Lemma seg_del h h' : forall cs l, seg h cs l -> NoDup cs -> forall k p d vp np vd nd bd,
  nth_error cs k = Some p -> nth_error cs (S k) = Some d ->
  link h p = Some (vp, np, true) -> link h d = Some (vd, nd, bd) ->
  (forall i, i <> p -> link h' i = link h i) ->
  (exists n', link h' p = Some (vp, n', bd) /\ (bd = true -> n' = nd)) ->
  seg h' (del_nth cs (S k)) (del_nth l (S k)).
Proof.
  induction 1 as [c v n E|c v n cs l E Hs IH]; intros N k p d vp np vd nd bd Hp Hd Lp Ld O (n' & Lp' & Hn').
  - destruct k; discriminate.
  - inversion N as [|? ? Hni N']; subst. destruct k as [|k].
    + injection Hp as <-. cbn in Hd. injection Hd as <-.
      rewrite del_nth_cons. change (del_nth (c :: n :: cs) 1) with (c :: cs).
      rewrite E in Lp. injection Lp as <- <-. inversion Hs as [c1 v1 n1 E1|c1 v1 n1 cs1 l1 E1 Hs1]; subst.
      * cbn. rewrite E1 in Ld. injection Ld as <- <- <-. eapply seg_one. exact Lp'.
      * rewrite E1 in Ld. injection Ld as <- <- <-. rewrite (Hn' eq_refl) in Lp'.
        change (del_nth (v1 :: l1) 0) with l1. apply seg_cons; [assumption|].
        eapply seg_agree; [|exact Hs1]. intros q Hq. apply O. intros ->. apply Hni. now right.
    + cbn in Hp, Hd. rewrite !del_nth_cons. pose proof (IH N' k p d vp np vd nd bd Hp Hd Lp Ld O (ex_intro _ n' (conj Lp' Hn'))) as IHH.
      rewrite del_nth_cons in IHH. apply seg_cons; [|assumption].
      rewrite O; [assumption|]. intros ->. apply Hni. eapply nth_error_In; eauto.
Qed.

Lemma del_loop_spec h : forall cs l, seg h cs l -> forall fuel p0 a j i k p d, hd_error cs = Some a -> length cs <= fuel ->
  i = j + S k -> nth_error cs k = Some p -> nth_error cs (S k) = Some d -> del_loop fuel h p0 a j i = Some (p, d).
Proof.
  induction 1 as [c v1 n1 E|c v1 n1 cs l E Hs IH]; intros fuel p0 a j i k p d Ha Hf Hi Hp Hd; injection Ha as <-;
    (destruct fuel as [|fuel]; [cbn in Hf; lia|]); cbn [del_loop].
  - destruct k; discriminate.
  - destruct (Nat.eqb_spec j i); [lia|]. apply link_inv in E as (x & Ex & Sx). unfold shape in Sx. injection Sx as Sv Sn Sh.
    rewrite Ex. cbn [bind]. rewrite Sh. cbn [assert bind]. rewrite Sn. destruct k as [|k].
    + injection Hp as <-. cbn in Hd. injection Hd as <-. destruct fuel as [|fuel]; [cbn in Hf; lia|]. cbn [del_loop].
      destruct (Nat.eqb_spec (j + 1) i); [reflexivity|lia].
    + eapply IH; try reflexivity; eauto; cbn [length] in *; lia.
Qed.

Lemma del_nth_in l k x : In x (del_nth l k) -> In x l.
Proof. unfold del_nth. intros H. apply in_app_or in H as [H|H]; [rewrite <- (firstn_skipn k l); apply in_or_app; now left|].
  rewrite <- (firstn_skipn (k + 1) l). apply in_or_app. now right. Qed.
Lemma del_nth_nodup l : forall k, NoDup l -> NoDup (del_nth l k).
Proof.
  induction l as [|a l IH]; intros k N; [destruct k; constructor|]. inversion N; subst.
  destruct k; [assumption|]. rewrite del_nth_cons. constructor; auto. intros Hi. apply del_nth_in in Hi. contradiction.
Qed.
Lemma del_nth_length l k : k < length l -> length (del_nth l k) = length l - 1.
Proof. intros. unfold del_nth. rewrite app_length, firstn_length, skipn_length. lia. Qed.
Lemma del_nth_last l : forall k d, S (S k) < length l -> last (del_nth l (S k)) d = last l d.
Proof.
  induction l as [|a l IH]; intros k d H; [cbn in H; lia|]. rewrite del_nth_cons. destruct l as [|b l]; [cbn in H; lia|].
  destruct k as [|k].
  - destruct l; [cbn in H; lia|]. reflexivity.
  - specialize (IH k d ltac:(cbn in *; lia)). rewrite del_nth_cons in *. cbn [last] in *. exact IH.
Qed.
Lemma del_nth_last2 l : forall k p d, S (S k) = length l -> nth_error l k = Some p -> last (del_nth l (S k)) d = p.
Proof.
  induction l as [|a l IH]; intros k p d H Hp; [cbn in H; lia|]. rewrite del_nth_cons. destruct k as [|k].
  - injection Hp as <-. destruct l as [|b [|c l]]; cbn in H; try lia. reflexivity.
  - cbn in Hp. destruct l as [|b l]; [destruct k; discriminate|]. specialize (IH k p d ltac:(cbn in *; lia) Hp).
    rewrite del_nth_cons in *. cbn [last] in *. exact IH.
Qed.

Lemma del_spec h a l cs i k : rep h a l cs -> nonneg_pos (length l) i = Some k -> ~ (k = 0 /\ length l = 2) ->
  exists h' cs', del h a i = Some h' /\ rep h' a (del_nth l k) cs' /\ evolves h h' cs cs'.
Proof.
  intros R P X. apply nonneg_pos_spec in P as (B & -> & Hk). unfold del.
  pose proof R as [N (x & Ex & El & R')]. rewrite Ex. cbn [bind]. rewrite El, B. cbn [assert bind].
  destruct l as [|w l]; [cbn in Hk; lia|]. destruct (rep_seg _ _ _ _ _ R) as (Hs & Hl & cs' & Hcs).
  destruct R' as (_ & _ & Ht). pose proof (seg_length _ _ _ Hs) as Ls.
  destruct k as [|k].
  - cbn [Z.of_nat Z.eqb]. change (del_nth (w :: l) 0) with l.
    inversion Hs as [c v n E|c v n ds m E Hs1]; subst; rename H into Hcs; injection Hcs as <- <-.
    + apply link_inv in E as (y & Ey & Sy). replace y with x in * by congruence. injection Sy as Sv Sn Sh. rewrite Sh.
      destruct (modify_ok h c x (fun _ => zero_cell) Ex) as (h' & E & L & G & O). exists h', [c]. split; [assumption|]. split.
      * split; [assumption|]. exists zero_cell. auto.
      * apply put_evolves; auto. intros i Hi. apply O. intros ->. apply Hi. now left.
    + apply link_inv in E as (y & Ey & Sy). replace y with x in * by congruence. injection Sy as Sv Sn Sh. rewrite Sh, Sn.
      inversion Hs1 as [c1 v1 n1 E1|c1 v1 n1 es m1 E1 Hs2]; subst; [exfalso; apply X; split; reflexivity|].
      apply link_inv in E1 as (z & Ez & Sz). injection Sz as Szv Szn Szh.
      getat Ez. getat G. rewrite G0. cbn [bind].
      inversion N as [|? ? Nc N1]; subst. inversion N1 as [|? ? Nn N2]; subst.
      assert (next x <> c) by (intros E2; apply Nc; left; congruence).
      assert (Gc : get h1 c = Some x) by (rewrite O0, O by congruence; assumption).
      match goal with |- context [modify h1 c ?f] => destruct (modify_ok h1 c x f Gc) as (h2 & E3 & L3 & G3 & O3) end.
      assert (Hsub : forall i, In i (c :: next z :: es) -> In i (c :: next x :: next z :: es)) by (intros i [<-|Hi]; [now left|right; now right]).
      exists h2, (c :: next z :: es). split; [assumption|]. split.
      * split; [constructor; [intros Hi; apply Nc; now right|assumption]|].
        eexists. split; [exact G3|]. split; [simpl in *; lia|]. split; [eauto|]. split.
        -- apply seg_cons; [unfold link; rewrite G3; cbn; unfold shape; cbn; congruence|].
           eapply seg_agree; [|exact Hs2]. intros q Hq. unfold link. rewrite O3, O0, O; auto; intros ->; [contradiction|contradiction|].
           apply Nc. now right.
        -- simpl in *. rewrite Ht. destruct es; reflexivity.
      * apply put_evolves; [lia| |assumption]. intros i Hi. rewrite O3, O0, O; auto; intros ->; apply Hi; [right; now left|right; now left|now left].
  - destruct (Z.eqb_spec (Z.of_nat (S k)) 0); [lia|]. rewrite Nat2Z.id.
    destruct (nth_error cs k) as [p|] eqn:Ep; [|apply nth_error_None in Ep; lia].
    destruct (nth_error cs (S k)) as [d|] eqn:Ed; [|apply nth_error_None in Ed; lia].
    rewrite (del_loop_spec h cs _ Hs (length h) a a 0 (S k) k p d) by (auto; now rewrite Hcs). cbn [bind].
    destruct (seg_nth _ _ _ _ _ Hs Ep) as (vp & np & Lp & _). destruct (seg_nth _ _ _ _ _ Hs Ed) as (vd & nd & Ld & _).
    replace (negb (S k =? length (w :: l))) with true in Lp by (destruct (Nat.eqb_spec (S k) (length (w :: l))); [lia|reflexivity]).
    pose proof Lp as Lp'. apply link_inv in Lp' as (xp & Gp & Sp). pose proof Ld as Ld'. apply link_inv in Ld' as (xd & Gd & Sd).
    unfold shape in Sp, Sd. injection Sp as Sp1 Sp2 Sp3. injection Sd as Sd1 Sd2 Sd3. rewrite Gd. cbn [bind].
    assert (Sd4 : have_next xd = negb (S (S k) =? length (w :: l))) by exact Sd3. rewrite Sd4.
    assert (Hpin : In p cs) by (eapply nth_error_In; eauto). assert (Hain : In a cs) by (rewrite Hcs; now left).
    assert (exists h1 x1, (if negb (S (S k) =? length (w :: l)) then modify h p (set_next (next xd))
               else do h <- modify h a (set_tail p); modify h p (set_have_next false)) = Some h1 /\ length h1 = length h /\
             (forall i, i <> a -> i <> p -> get h1 i = get h i) /\ (forall i, i <> p -> link h1 i = link h i) /\
             (exists n', link h1 p = Some (vp, n', negb (S (S k) =? length (w :: l))) /\ (negb (S (S k) =? length (w :: l)) = true -> n' = nd)) /\
             get h1 a = Some x1 /\ len x1 = len x /\ tail x1 = (if S (S k) =? length (w :: l) then p else tail x)) as (h1 & x1 & E1 & L1 & O1 & K1 & Kp & G1 & Ln1 & T1).
    { destruct (Nat.eqb_spec (S (S k)) (length (w :: l))) as [Hlast|Hlast]; cbn [negb].
      - getat Ex. assert (exists yp, get h0 p = Some yp /\ shape yp = shape xp /\ (a = p -> yp = set_tail p x) /\ (a <> p -> yp = xp)) as (yp & Gyp & Syp & Y1 & Y2).
        { destruct (Nat.eq_dec a p) as [->|Ha]; [rewrite G; replace xp with x by congruence; eexists; split; [reflexivity|]; repeat split; congruence|].
          rewrite O by congruence. exists xp. repeat split; auto. contradiction. }
        destruct (modify_ok h0 p yp (set_have_next false) Gyp) as (h1 & E1 & L1 & G1 & O1).
        exists h1. assert (exists x1, get h1 a = Some x1 /\ len x1 = len x /\ tail x1 = p) as (x1 & Gx1 & Lx1 & Tx1).
        { destruct (Nat.eq_dec a p) as [Ha|Ha]; [rewrite Ha, G1; eexists; split; [reflexivity|]; rewrite Y1 by auto; auto|].
          rewrite O1, G by congruence. eexists. split; [reflexivity|]. auto. }
        exists x1. split; [assumption|]. split; [lia|]. split; [intros i Hi1 Hi2; rewrite O1, O by congruence; reflexivity|].
        split; [|split; [|auto]].
        + intros i Hi. unfold link. rewrite O1 by congruence. destruct (Nat.eq_dec i a) as [->|Hia]; [rewrite G, Ex; reflexivity|now rewrite O].
        + exists np. split; [|discriminate]. unfold link. rewrite G1. cbn. unfold shape in *. cbn [option_map val next have_next set_have_next]. injection Syp as -> -> _. congruence.
      - destruct (modify_ok h p xp (set_next (next xd)) Gp) as (h1 & E1 & L1 & G1 & O1). exists h1.
        assert (exists x1, get h1 a = Some x1 /\ len x1 = len x /\ tail x1 = tail x) as (x1 & Gx1 & Lx1 & Tx1).
        { destruct (Nat.eq_dec a p) as [Ha|Ha]; [rewrite Ha, G1; eexists; split; [reflexivity|]; replace xp with x by congruence; auto|].
          rewrite O1 by congruence. eauto. }
        exists x1. split; [assumption|]. split; [lia|]. split; [intros i Hi1 Hi2; rewrite O1 by congruence; reflexivity|].
        split; [|split; [|auto]].
        + intros i Hi. unfold link. now rewrite O1.
        + exists nd. split; [|auto]. unfold link. rewrite G1. cbn. unfold shape. cbn. congruence. }
    rewrite E1. cbn [bind].
    destruct (modify_ok h1 a x1 (fun c => set_len (len c - 1) c) G1) as (h2 & E2 & L2 & G2 & O2).
    assert (K2 : forall i, link h2 i = link h1 i).
    { intros i. unfold link. destruct (Nat.eq_dec i a) as [->|Hi]; [rewrite G2, G1; reflexivity|now rewrite O2]. }
    assert (Hsd : seg h2 (del_nth cs (S k)) (del_nth (w :: l) (S k))).
    { eapply (seg_del h h2); eauto.
      - intros i Hi. rewrite K2. auto.
      - rewrite K2. exact Kp. }
    exists h2, (del_nth cs (S k)). split; [assumption|]. split.
    + split; [now apply del_nth_nodup|]. eexists. split; [exact G2|]. split; [simpl len; rewrite del_nth_length by assumption; lia|].
      rewrite del_nth_cons in *. split; [rewrite Hcs, del_nth_cons; eauto|]. split; [assumption|].
      simpl tail. rewrite T1. destruct (Nat.eqb_spec (S (S k)) (length (w :: l))) as [Hlast|Hlast].
      * symmetry. apply del_nth_last2; [lia|assumption].
      * rewrite Ht. symmetry. apply del_nth_last. lia.
    + apply put_evolves; [lia| |].
      * intros i Hi. rewrite O2, O1; auto; intros ->; contradiction.
      * intros i Hi. now apply del_nth_in in Hi.
Qed.

Lemma pop_spec h a l cs v r : rep h a l cs -> rev l = v :: r ->
  exists h' cs', pop h a = Some (h', v) /\ rep h' a (rev r) cs' /\ evolves h h' cs cs'.
Proof.
  intros R Er. assert (El : l = rev r ++ [v]) by (rewrite <- (rev_involutive l), Er; reflexivity). unfold pop.
  assert (exists w m, l = w :: m) as (w & m & Ew) by (destruct l; [destruct (rev r); discriminate|eauto]). rewrite Ew in R.
  rewrite (get_tail_spec _ _ _ _ _ R). cbn [bind]. destruct (rep_len _ _ _ _ R) as (x & E & L). rewrite E. cbn [bind]. rewrite L.
  assert (Ll : length (w :: m) = S (length r)) by (rewrite <- Ew, El, app_length, rev_length; cbn; lia).
  destruct (del_spec h a (w :: m) cs (Z.of_nat (length (w :: m)) - 1) (length r) R) as (h' & cs' & Ed & R' & Ev).
  - unfold nonneg_pos. rewrite Ll. destruct (Z.leb_spec 0 (Z.of_nat (S (length r)) - 1)); [|lia].
    destruct (Z.ltb_spec (Z.of_nat (S (length r)) - 1) (Z.of_nat (S (length r)))); [|lia]. cbn [andb]. f_equal. lia.
  - intros [H1 H2]. lia.
  - rewrite Ed. cbn [bind]. exists h', cs'. rewrite <- Ew, El, last_app_one. split; [reflexivity|]. split; [|assumption].
    replace (rev r) with (del_nth (w :: m) (length r)); [assumption|]. rewrite <- Ew, El. unfold del_nth.
    rewrite firstn_app, rev_length, Nat.sub_diag. rewrite <- (rev_length r) at 1. rewrite firstn_all.
    rewrite (skipn_all2 (rev r ++ [v])) by (rewrite app_length, rev_length; cbn; lia). cbn. now rewrite !app_nil_r.
Qed.

(** ** Histories *)
Section Hist.
Variable equal : nat -> nat -> bool.
Variable str_of : nat -> option bytes.
Hypothesis refl : forall v, equal v v = true.

Definition Inv (s : state) (sp : store) (css : nat -> list nat) : Prop :=
  length (vars s) = length sp /\
  (forall i l, look sp i = Some l -> exists a, nth_error (vars s) i = Some a /\ rep (hp s) a l (css i)) /\
  (forall i j, i <> j -> look sp i <> None -> look sp j <> None -> forall c, In c (css i) -> ~ In c (css j)).

Lemma look_upd_same sp a o l : look sp a = Some l -> look (upd a o sp) a = o.
Proof.
  unfold look. intros H. assert (a < length sp) by (apply nth_error_Some; destruct (nth_error sp a); congruence).
  rewrite nth_error_upd_same by assumption. now destruct o.
Qed.
Lemma look_upd_other sp a b o : a <> b -> look (upd a o sp) b = look sp b.
Proof. intros. unfold look. now rewrite nth_error_upd_other. Qed.

Lemma inv_write s sp css a l h' id' l' cs' : Inv s sp css -> look sp a = Some l ->
  evolves (hp s) h' (css a) cs' -> rep h' id' l' cs' ->
  Inv (mkState h' (upd a id' (vars s))) (upd a (Some l') sp) (fun k => if k =? a then cs' else css k).
Proof.
  intros (L & R & D) Ha (Lh & O & F) R'.
  assert (La : a < length sp) by (apply nth_error_Some; unfold look in Ha; destruct (nth_error sp a); congruence).
  split; [cbn; now rewrite !upd_length|]. split.
  - intros i m Hi. cbn [vars hp]. destruct (Nat.eqb_spec i a) as [->|Hia].
    + rewrite (look_upd_same _ _ _ _ Ha) in Hi. injection Hi as <-. exists id'. rewrite nth_error_upd_same by lia. auto.
    + rewrite look_upd_other in Hi by congruence. destruct (R _ _ Hi) as (b & Eb & Rb). exists b. rewrite nth_error_upd_other by congruence.
      split; [assumption|]. eapply rep_agree; [|exact Rb]. intros c Hc. apply O; [eapply rep_valid; eauto|].
      apply (D i a); auto; congruence.
  - intros i j Hij Hi Hj c Hc.
    assert (Hf : forall k, look (upd a (Some l') sp) k <> None -> look sp k <> None).
    { intros k. destruct (Nat.eq_dec k a) as [->|Hk]; [congruence|]. now rewrite look_upd_other by congruence. }
    apply Hf in Hi, Hj.
    assert (V : forall k c, look sp k <> None -> In c (css k) -> c < length (hp s)).
    { intros k c0 Hk Hc0. destruct (look sp k) as [m|] eqn:E; [|congruence]. destruct (R _ _ E) as (b & _ & Rb). eapply rep_valid; eauto. }
    destruct (Nat.eqb_spec i a) as [->|Hia]; destruct (Nat.eqb_spec j a) as [->|Hja]; [congruence| | |eapply D; eauto].
    + intros Hc2. apply F in Hc as [Hc|Hc]; [eapply (D a j); eauto|]. apply V in Hc2; auto. lia.
    + intros Hc2. apply F in Hc2 as [Hc2|Hc2]; [eapply (D i a); eauto|]. apply V in Hc; auto. lia.
Qed.

Lemma inv_fresh s sp css h' r l' cs' : Inv s sp css -> evolves (hp s) h' [] cs' -> rep h' r l' cs' ->
  Inv (mkState h' (vars s ++ [r])) (sp ++ [Some l']) (fun k => if k =? length sp then cs' else css k).
Proof.
  intros (L & R & D) (Lh & O & F) R'.
  assert (Lk : forall k, k <> length sp -> look (sp ++ [Some l']) k = look sp k).
  { intros k Hk. unfold look. destruct (Nat.lt_ge_cases k (length sp)); [now rewrite nth_error_app1|].
    assert (nth_error (sp ++ [Some l']) k = None) as -> by (apply nth_error_None; rewrite app_length; cbn; lia).
    assert (nth_error sp k = None) as -> by (apply nth_error_None; lia). reflexivity. }
  assert (V : forall k c, look sp k <> None -> In c (css k) -> c < length (hp s)).
  { intros k c0 Hk Hc0. destruct (look sp k) as [m|] eqn:E; [|congruence]. destruct (R _ _ E) as (b & _ & Rb). eapply rep_valid; eauto. }
  split; [cbn; rewrite !app_length; cbn; lia|]. split.
  - intros i m Hi. cbn [vars hp]. destruct (Nat.eqb_spec i (length sp)) as [->|Hia].
    + unfold look in Hi. rewrite nth_error_app2, Nat.sub_diag in Hi by lia. injection Hi as <-. exists r.
      rewrite <- L, nth_error_app2, Nat.sub_diag by lia. auto.
    + rewrite Lk in Hi by assumption. destruct (R _ _ Hi) as (b & Eb & Rb). exists b.
      rewrite nth_error_app1 by (apply nth_error_Some; congruence). split; [assumption|].
      eapply rep_agree; [|exact Rb]. intros c Hc. apply O; [eapply rep_valid; eauto|easy].
  - intros i j Hij Hi Hj c Hc.
    destruct (Nat.eqb_spec i (length sp)) as [->|Hia]; destruct (Nat.eqb_spec j (length sp)) as [->|Hja]; [congruence| | |].
    + intros Hc2. rewrite Lk in Hj by assumption. apply F in Hc as [[]|Hc]. apply V in Hc2; auto. lia.
    + intros Hc2. rewrite Lk in Hi by assumption. apply F in Hc2 as [[]|Hc2]. apply V in Hc; auto. lia.
    + rewrite Lk in Hi, Hj by assumption. eapply D; eauto.
Qed.

Lemma upd_same {A} (l : list A) i x : nth_error l i = Some x -> upd i x l = l.
Proof. revert i. induction l as [|y l IH]; intros [|i] H; cbn in *; try discriminate; [congruence|]. f_equal. auto. Qed.

Lemma step_refines s sp css c sp' r : Inv s sp css -> spec_step equal str_of sp c = Some (sp', r) -> shrinks_pair sp c = false ->
  exists s' css', step equal str_of s c = Some (s', r) /\ Inv s' sp' css'.
Proof.
  intros HI. pose proof HI as (L & R & D).
  assert (W : forall a l id h' l' cs', look sp a = Some l -> nth_error (vars s) a = Some id -> evolves (hp s) h' (css a) cs' -> rep h' id l' cs' ->
             Inv (mkState h' (vars s)) (upd a (Some l') sp) (fun k => if k =? a then cs' else css k)).
  { intros a l id h' l' cs' Hl Hv E Rp. rewrite <- (upd_same (vars s) a id Hv) at 1. eapply inv_write; eauto. }
  destruct c; cbn [spec_step step]; intros Hs Hp.
  - injection Hs as <- <-. eexists _, _. split; [reflexivity|]. eapply inv_fresh; eauto; [apply make_evolves|apply rep_make].
  - destruct (look sp a) as [l|] eqn:El; [|discriminate]. injection Hs as <- <-. destruct (R _ _ El) as (id & Ev & Rp).
    rewrite Ev. cbn [bind]. destruct (push_spec _ _ _ _ v Rp) as (h' & cs' & E & R' & Evo). rewrite E. cbn [bind].
    eexists _, _. split; [reflexivity|]. eapply W; eauto.
  - destruct (look sp a) as [l|] eqn:El; [|discriminate]. injection Hs as <- <-. destruct (R _ _ El) as (id & Ev & Rp).
    rewrite Ev. cbn [bind]. destruct (prepend_spec _ _ _ _ v Rp) as (h' & p & cs' & E & R' & Evo). rewrite E. cbn [bind].
    eexists _, _. split; [reflexivity|]. eapply inv_write; eauto.
  - destruct (look sp a) as [l|] eqn:El; [|discriminate]. injection Hs as <- <-. destruct (R _ _ El) as (id & Ev & Rp).
    rewrite Ev. cbn [bind]. destruct (dup_spec _ _ _ _ Rp) as (h' & p & cs' & E & R' & Evo). rewrite E. cbn [bind].
    eexists _, _. split; [reflexivity|]. eapply inv_fresh; eauto.
  - destruct (look sp a) as [l|] eqn:El; [|discriminate]. cbn [bind] in Hs. destruct (look sp b) as [m|] eqn:Em; [|discriminate].
    injection Hs as <- <-. destruct (R _ _ El) as (id & Ev & Rp). destruct (R _ _ Em) as (id2 & Ev2 & Rp2).
    rewrite Ev, Ev2. cbn [bind]. destruct (extend_spec _ _ _ _ _ _ _ Rp Rp2) as (h' & cs' & E & R' & Evo). rewrite E. cbn [bind].
    eexists _, _. split; [reflexivity|]. eapply W; eauto.
  - destruct (Nat.eqb_spec a b) as [|Hab]; [discriminate|].
    destruct (look sp a) as [l|] eqn:El; [|discriminate]. cbn [bind] in Hs. destruct (look sp b) as [m|] eqn:Em; [|discriminate].
    injection Hs as <- <-. destruct (R _ _ El) as (id & Ev & Rp). destruct (R _ _ Em) as (id2 & Ev2 & Rp2).
    rewrite Ev, Ev2. cbn [bind].
    destruct (extend_nodup_spec _ _ _ _ _ _ _ Rp Rp2) as (h' & cs' & E & R' & Lh & O & F).
    { apply (D b a); congruence. }
    rewrite E. cbn [bind]. eexists _, (fun k => if k =? a then cs' else css k). split; [reflexivity|].
    split; [cbn; now rewrite !upd_length|].
    assert (Lb : look (upd a (Some (l ++ m)) sp) b = Some m) by (rewrite look_upd_other; auto).
    assert (Lk : forall k, k <> a -> k <> b -> look (upd b None (upd a (Some (l ++ m)) sp)) k = look sp k) by (intros; now rewrite !look_upd_other by congruence).
    assert (V : forall k c, look sp k <> None -> In c (css k) -> c < length (hp s)).
    { intros k c0 Hk Hc0. destruct (look sp k) as [q|] eqn:E1; [|congruence]. destruct (R _ _ E1) as (b1 & _ & Rb). eapply rep_valid; eauto. }
    split.
    + intros i q Hi. cbn [vars hp]. destruct (Nat.eq_dec i b) as [->|Hib]; [rewrite (look_upd_same _ _ _ _ Lb) in Hi; discriminate|].
      destruct (Nat.eqb_spec i a) as [->|Hia].
      * rewrite look_upd_other in Hi by congruence. rewrite (look_upd_same _ _ _ _ El) in Hi. injection Hi as <-. eauto.
      * rewrite Lk in Hi by assumption. destruct (R _ _ Hi) as (e & Ee & Re). exists e. split; [assumption|]. eapply rep_agree; [|exact Re].
        intros c Hc. apply O; [eapply rep_valid; eauto|]. intros Hc2. apply in_app_or in Hc2 as [Hc2|Hc2]; [eapply (D i a)|eapply (D i b)]; eauto; congruence.
    + intros i j Hij Hi Hj c Hc.
      assert (i <> b) by (intros ->; rewrite (look_upd_same _ _ _ _ Lb) in Hi; congruence).
      assert (j <> b) by (intros ->; rewrite (look_upd_same _ _ _ _ Lb) in Hj; congruence).
      destruct (Nat.eqb_spec i a) as [->|Hia]; destruct (Nat.eqb_spec j a) as [->|Hja]; [congruence| | |].
      * rewrite Lk in Hj by assumption. intros Hc2. apply F in Hc as [Hc|Hc]; [|apply V in Hc2; auto; lia].
        apply in_app_or in Hc as [Hc|Hc]; [eapply (D a j)|eapply (D b j)]; eauto; congruence.
      * rewrite Lk in Hi by assumption. intros Hc2. apply F in Hc2 as [Hc2|Hc2]; [|apply V in Hc; auto; lia].
        apply in_app_or in Hc2 as [Hc2|Hc2]; [eapply (D i a)|eapply (D i b)]; eauto; congruence.
      * rewrite Lk in Hi, Hj by assumption. eapply D; eauto.
  - destruct (look sp a) as [l|] eqn:El; [|discriminate]. cbn [bind] in Hs. destruct (nonneg_pos (length l) i) as [n|] eqn:Ep; [|discriminate].
    injection Hs as <- <-. destruct (R _ _ El) as (id & Ev & Rp). rewrite Ev. cbn [bind].
    destruct (set_spec _ _ _ _ i n v Rp Ep) as (h' & cs' & E & R' & Evo). rewrite E. cbn [bind].
    eexists _, _. split; [reflexivity|]. eapply W; eauto.
  - cbn [shrinks_pair] in Hp. destruct (look sp a) as [l|] eqn:El; [|discriminate]. cbn [bind] in Hs. destruct (nonneg_pos (length l) i) as [n|] eqn:Ep; [|discriminate].
    injection Hs as <- <-. destruct (R _ _ El) as (id & Ev & Rp). rewrite Ev. cbn [bind].
    destruct (del_spec _ _ _ _ i n Rp Ep) as (h' & cs' & E & R' & Evo).
    { intros [-> H2]. apply nonneg_pos_spec in Ep as (_ & -> & _). rewrite H2 in Hp. discriminate. }
    rewrite E. cbn [bind]. eexists _, _. split; [reflexivity|]. eapply W; eauto.
  - destruct (look sp a) as [l|] eqn:El; [|discriminate]. cbn [bind] in Hs. destruct (rev l) as [|v m] eqn:Er; [discriminate|].
    injection Hs as <- <-. destruct (R _ _ El) as (id & Ev & Rp). rewrite Ev. cbn [bind].
    destruct (pop_spec _ _ _ _ v m Rp Er) as (h' & cs' & E & R' & Evo). rewrite E. cbn [bind].
    eexists _, _. split; [reflexivity|]. eapply W; eauto.
  - destruct (look sp a) as [l|] eqn:El; [|discriminate]. cbn [bind] in Hs. destruct (nonneg_pos (length l) i) as [n|] eqn:Ep; [|discriminate].
    cbn [bind] in Hs. destruct (nth_error l n) as [v|] eqn:En; [|discriminate]. injection Hs as <- <-. destruct (R _ _ El) as (id & Ev & Rp). rewrite Ev. cbn [bind].
    rewrite (index_spec _ _ _ _ _ _ Rp Ep), En. cbn [bind]. eauto.
  - destruct (look sp a) as [l|] eqn:El; [|discriminate]. cbn [bind] in Hs. destruct (pos (length l) i0) as [n0|] eqn:E0; [|discriminate].
    cbn [bind] in Hs. destruct (pos (length l) i1) as [n1|] eqn:E1; [|discriminate]. injection Hs as <- <-. destruct (R _ _ El) as (id & Ev & Rp). rewrite Ev. cbn [bind].
    destruct (slice_spec _ _ _ _ _ _ _ _ Rp E0 E1) as (h' & p & cs' & E & R' & Evo). rewrite E. cbn [bind].
    eexists _, _. split; [reflexivity|]. eapply inv_fresh; eauto.
  - destruct (look sp a) as [l|] eqn:El; [|discriminate]. injection Hs as <- <-. destruct (R _ _ El) as (id & Ev & Rp).
    rewrite Ev. cbn [bind]. destruct (dedup_spec equal _ _ _ _ refl Rp) as (h' & p & cs' & E & R' & Evo). rewrite E. cbn [bind].
    eexists _, _. split; [reflexivity|]. eapply inv_fresh; eauto.
  - destruct (look sp a) as [l|] eqn:El; [|discriminate]. injection Hs as <- <-. destruct (R _ _ El) as (id & Ev & Rp).
    rewrite Ev. cbn [bind]. rewrite (in_spec equal _ _ _ _ v Rp). cbn [bind]. eauto.
  - destruct (look sp a) as [l|] eqn:El; [|discriminate]. injection Hs as <- <-. destruct (R _ _ El) as (id & Ev & Rp).
    rewrite Ev. cbn [bind]. rewrite (join_spec str_of _ _ _ _ sep Rp). cbn [bind]. eauto.
  - destruct (look sp a) as [l|] eqn:El; [|discriminate]. injection Hs as <- <-. destruct (R _ _ El) as (id & Ev & Rp).
    rewrite Ev. cbn [bind]. rewrite (length_spec _ _ _ _ Rp). cbn [bind]. eauto.
  - destruct (look sp a) as [l|] eqn:El; [|discriminate]. injection Hs as <- <-. destruct (R _ _ El) as (id & Ev & Rp).
    rewrite Ev. cbn [bind]. rewrite (elements_spec _ _ _ _ Rp). cbn [bind]. eauto.
Qed.

Lemma run_refines cs : forall s sp css sp' rs, Inv s sp css -> spec_run equal str_of sp cs = Some (sp', rs) -> never_shrinks_pair equal str_of sp cs ->
  exists s' css', run equal str_of s cs = Some (s', rs) /\ Inv s' sp' css'.
Proof.
  induction cs as [|c cs IH]; intros s sp css sp' rs HI Hs Hn; cbn [spec_run run never_shrinks_pair] in *.
  - injection Hs as <- <-. eauto.
  - destruct (spec_step equal str_of sp c) as [[sp1 r]|] eqn:E; [|discriminate]. cbn [bind] in Hs.
    destruct (spec_run equal str_of sp1 cs) as [[sp2 rs2]|] eqn:E2; [|discriminate]. cbn [bind] in Hs. injection Hs as <- <-.
    destruct Hn as [Hn1 Hn2]. destruct (step_refines _ _ _ _ _ _ HI E Hn1) as (s1 & css1 & E1 & I1). rewrite E1. cbn [bind].
    destruct (IH _ _ _ _ _ I1 E2 (Hn2 _ _ eq_refl)) as (s2 & css2 & E3 & I2). rewrite E3. cbn [bind]. eauto.
Qed.

Lemma inv_start : Inv (mkState [] []) [] (fun _ => []).
Proof.
  split; [reflexivity|]. split.
  - intros i l H. unfold look in H. destruct i; discriminate.
  - intros i j _ H. unfold look in H. destruct i; contradiction.
Qed.

Lemma out_of_range s sp css a l i : Inv s sp css -> look sp a = Some l -> ~ (0 <= i < Z.of_nat (length l))%Z ->
  step equal str_of s (Index a i) = None /\ step equal str_of s (Del a i) = None /\ forall v, step equal str_of s (SetAt a i v) = None.
Proof.
  intros (L & R & D) El Hi. destruct (R _ _ El) as (id & Ev & Rp). destruct (rep_len _ _ _ _ Rp) as (x & Ex & Lx).
  assert (B : ((0 <=? i) && (i <? Z.of_nat (length l)))%Z = false).
  { destruct (Z.leb_spec 0 i); destruct (Z.ltb_spec i (Z.of_nat (length l))); try reflexivity. lia. }
  cbn [step]. rewrite Ev. cbn [bind]. unfold index, del, array_set. rewrite Ex. cbn [bind]. rewrite Lx, B. cbn. auto.
Qed.
End Hist.
