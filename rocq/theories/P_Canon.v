(** C72: canonical paths in the build tool.  Vocabulary (is_abs, comps, walk) is in S_Path:
    [walk (comps p) = (u, st)] means that following p lexically goes up u levels and then
    down the names st. *)
From Verif Require Import Base M_Path S_Path L_Path M_Canon L_Canon.

(** For every nonempty path that at no point goes more than 60 names deep and does not
    resolve to the root directory, the result is the canonical text of the place the path
    leads to: the necessary ".." steps followed by the remaining names. *)
Theorem C72_canonical_partial : forall p u st, p <> [] ->
  (forall k, length (snd (walk (firstn k (comps p)))) <= 60) ->
  walk (comps p) = (u, st) ->
  (is_abs p = true -> (u, st) <> (0, [])) ->
  canonpath p = Some (render (is_abs p) (repeat (B "..") u ++ st)).
Proof.
  intros p u st Hne Hd W Hr. destruct (canonpath_spec p Hne) as [H _].
  rewrite H, W.
  - unfold flat. cbn [fst snd]. destruct (repeat (B "..") u ++ st) as [|x l] eqn:E.
    + destruct (is_abs p); [|reflexivity]. exfalso. apply Hr; [reflexivity|].
      apply app_eq_nil in E as [E ->]. destruct u; [reflexivity|discriminate].
    + unfold render, rootb. destruct (is_abs p); reflexivity.
  - intros [k Hk]. specialize (Hd k). lia.
Qed.
Print Assumptions C72_canonical_partial.
Example C72_witness : canonpath (B "./a//b/../../../c/./d/") = Some (B "../c/d") /\
  canonpath (B "/x/../../y") = Some (B "/../y") /\ canonpath (B "a/..") = Some (B ".").
Proof. vm_compute. auto. Qed.

(** A path that goes deeper than 60 names is a fatal error, never an overrun. *)
Theorem C72_too_deep_is_fatal : forall p, p <> [] ->
  (exists k, 60 < length (snd (walk (firstn k (comps p))))) -> canonpath p = None.
Proof. intros p Hne H. now apply (canonpath_spec p Hne). Qed.
Print Assumptions C72_too_deep_is_fatal.
Example C72_too_deep_witness : canonpath (concat (repeat (B "a/") 61)) = None /\
  canonpath (concat (repeat (B "a/") 60)) <> None.
Proof. vm_compute. split; [reflexivity|discriminate]. Qed.

(** Two such paths get the same canonical text exactly when they are of the same kind and
    lead to the same place, so they become the same node. *)
Theorem C72_same_node_partial : forall p q, p <> [] -> q <> [] ->
  (forall k, length (snd (walk (firstn k (comps p)))) <= 60) ->
  (forall k, length (snd (walk (firstn k (comps q)))) <= 60) ->
  (canonpath p = canonpath q <->
   is_abs p = is_abs q /\ walk (comps p) = walk (comps q)).
Proof.
  intros p q Hp Hq Dp Dq.
  destruct (canonpath_spec p Hp) as [Sp _]. destruct (canonpath_spec q Hq) as [Sq _].
  rewrite Sp, Sq by (intros [k Hk]; first [specialize (Dp k); lia|specialize (Dq k); lia]).
  clear Sp Sq. split.
  2:{ intros [-> ->]. reflexivity. }
  assert (Fw : forall r, Forall good (flat (walk (comps r))) /\ ~ In (B "..") (snd (walk (comps r)))).
  { intros r. assert (G : forall cs acc, Forall good cs -> Forall good (snd acc) -> ~ In (B "..") (snd acc) ->
      Forall good (snd (fold_left walk1 cs acc)) /\ ~ In (B "..") (snd (fold_left walk1 cs acc))).
    { induction cs as [|c cs IH]; intros [u st] HG Hs Hn; [auto|]. cbn [fold_left]. inversion HG; subst.
      apply IH; [assumption|..]; unfold walk1; destruct (is_up c) eqn:E; cbn [snd].
      - destruct st; [constructor|]. apply removelast_Forall. exact Hs.
      - apply Forall_app. split; [exact Hs|now constructor].
      - destruct st as [|x st']; [auto|]. cbn [snd]. intros Hin. apply Hn. cbn [snd].
        destruct (snoc_case (x :: st')) as [En|(l' & z & En)]; [discriminate|]. rewrite En in *.
        rewrite removelast_last in Hin. apply in_or_app. now left.
      - intros Hin. apply in_app_or in Hin as [Hin|[Hin|[]]]; [now apply Hn|]. unfold is_up in E. subst c. discriminate. }
    destruct (G (comps r) (0, []) (comps_good r) (Forall_nil _) (fun x => x)) as [G1 G2]. split; [|exact G2].
    unfold flat. apply Forall_app. split; [apply Forall_repeat_dd|exact G1]. }
  destruct (Fw p) as [Gp Np]. destruct (Fw q) as [Gq Nq].
  assert (Inj : flat (walk (comps p)) = flat (walk (comps q)) -> walk (comps p) = walk (comps q)).
  { destruct (walk (comps p)) as [u1 s1], (walk (comps q)) as [u2 s2]. unfold flat. cbn [fst snd] in *.
    clear - Np Nq. revert u2. induction u1 as [|u1 IH]; intros [|u2] H; cbn [repeat app] in H.
    - congruence.
    - subst s1. exfalso. apply Np. now left.
    - subst s2. exfalso. apply Nq. now left.
    - inversion H as [H']. apply IH in H'. congruence. }
  assert (J : forall l, l <> [] -> Forall good l -> exists x t, joinb [SEP] l = x :: t /\ x <> SEP).
  { intros l Hl HG. pose proof (joinb_nonempty l Hl HG). pose proof (joinb_head l HG) as Hh.
    destruct (joinb [SEP] l) as [|x t]; [congruence|]. exists x, t. split; [reflexivity|]. simpl in Hh. now apply ceqb_neq. }
  assert (JI : forall a b, Forall good a -> Forall good b -> joinb [SEP] a = joinb [SEP] b -> a = b).
  { intros a b Ha Hb E. rewrite <- (comps_joinb a Ha), <- (comps_joinb b Hb). now rewrite E. }
  assert (JD : forall l, Forall good l -> joinb [SEP] l <> B ".").
  { intros l HG E. assert (Ec : comps (B ".") = l) by (rewrite <- E; apply comps_joinb; assumption).
    change (comps (B ".")) with (@nil bytes) in Ec. subst l. discriminate. }
  intros E. assert (E0 := f_equal (fun o => match o with Some x => x | None => [] end) E). cbv beta iota in E0. clear E. rename E0 into E.
  destruct (flat (walk (comps p))) as [|x1 l1] eqn:E1, (flat (walk (comps q))) as [|x2 l2] eqn:E2.
  - destruct (is_abs p), (is_abs q); try discriminate E; auto.
  - exfalso. destruct (J (x2 :: l2) ltac:(discriminate) Gq) as (y & t & Ey & Hy).
    unfold rootb in E. destruct (is_abs p), (is_abs q); cbn [app] in E; try discriminate E.
    + rewrite Ey in E. discriminate E.
    + symmetry in E. exact (JD _ Gq E).
  - exfalso. destruct (J (x1 :: l1) ltac:(discriminate) Gp) as (y & t & Ey & Hy).
    unfold rootb in E. destruct (is_abs p), (is_abs q); cbn [app] in E; try discriminate E.
    + rewrite Ey in E. discriminate E.
    + exact (JD _ Gp E).
  - destruct (J (x1 :: l1) ltac:(discriminate) Gp) as (y1 & t1 & Ey1 & Hy1).
    destruct (J (x2 :: l2) ltac:(discriminate) Gq) as (y2 & t2 & Ey2 & Hy2).
    unfold rootb in E. destruct (is_abs p), (is_abs q); cbn [app] in E.
    + assert (E' : joinb [SEP] (x1 :: l1) = joinb [SEP] (x2 :: l2)) by exact (f_equal (@tl ascii) E). apply JI in E'; auto.
    + exfalso. rewrite Ey2 in E. inversion E. congruence.
    + exfalso. rewrite Ey1 in E. inversion E. congruence.
    + apply JI in E; auto.
Qed.
Print Assumptions C72_same_node_partial.
Example C72_same_witness : walk (comps (B "a/./b")) = walk (comps (B "a//c/../b")) /\
  canonpath (B "a/./b") = canonpath (B "a//c/../b").
Proof. vm_compute. auto. Qed.

(** The root directory, in any spelling, becomes the empty path. *)
Theorem C72_root_refuted : exists p, is_abs p = true /\ walk (comps p) = (0, []) /\ canonpath p = Some [].
Proof. exists (B "/a/.."). vm_compute. auto. Qed.
Print Assumptions C72_root_refuted.

(** Canonicalising twice changes nothing (whenever the first result is a path at all). *)
Theorem C72_idempotent : forall p q, p <> [] -> canonpath p = Some q -> q <> [] -> canonpath q = Some q.
Proof. exact canon_idempotent. Qed.
Print Assumptions C72_idempotent.
Example C72_idempotent_witness : canonpath (B "x/.././../b//c") = Some (B "../b/c") /\ canonpath (B "../b/c") = Some (B "../b/c").
Proof. vm_compute. auto. Qed.
