(** C43: foreach runs its body once for each element, in order; C45: what range() lists. *)
From Verif Require Import Base M_Interp S_Interp L_Interp L_Mono L_Eval L_Effects L_Scope L_An L_Call L_Vars.

Lemma assign_innermost : forall x o s s', innermost x o s = Some s' -> assign_local x o s = Ok s' tt.
Proof.
  intros x o s s' H. unfold innermost in H. unfold assign_local, set_in_scope, put.
  destruct (rev (nth (cur s) (stacks s) [])) as [|i l]; [discriminate|]. inversion H; subst. reflexivity.
Qed.
Lemma innermost_heap : forall x o s s', innermost x o s = Some s' -> heap s' = heap s /\ ctl s' = ctl s /\ stacks s' = stacks s /\ cur s' = cur s.
Proof.
  intros x o s s' H. unfold innermost in H.
  destruct (rev (nth (cur s) (stacks s) [])) as [|i l]; [discriminate|]. inversion H; subst. auto.
Qed.
Lemma norm_norm : forall s, ctl s = loop_norm -> with_ctl loop_norm s = s.
Proof. intros [] H. cbn in *. now subst. Qed.

Section Loop.
Variable other : bytes -> option builtin.
Variable method : obj -> bytes -> option builtin.
Notation interp := (interp other method).
Notation evaluates := (evaluates other method).
Notation runs := (runs other method).
Notation arguments := (arguments other method).
Notation E f := (fun e => interp f (NExpr e)).
Notation Bk f := (fun b => interp f (NBlock b)).

Lemma common_go : forall body f s s' o, body <> [] -> interp f (NBlock body) s = Ok s' o -> ctl s' <> loop_breaking ->
  foreach_common (Bk f) body s = Ok (with_ctl loop_norm s') true.
Proof.
  intros body f s s' o N H C. destruct body as [|b body]; [congruence|]. cbn [foreach_common]. unfold bind. rewrite H. cbn.
  destruct (ctl s') eqn:Ec; try reflexivity; [unfold ret; now rewrite norm_norm|congruence].
Qed.
Lemma common_stop : forall body f s s' o, body <> [] -> interp f (NBlock body) s = Ok s' o -> ctl s' = loop_breaking ->
  foreach_common (Bk f) body s = Ok (with_ctl loop_norm s') false.
Proof.
  intros body f s s' o N H C. destruct body as [|b body]; [congruence|]. cbn [foreach_common]. unfold bind. rewrite H. cbn.
  rewrite C. reflexivity.
Qed.

(** ** Arrays *)
Lemma array_loop : forall x body arr l, body <> [] ->
  forall items s s', runs (fun t => nth_error (heap t) arr = Some (OArr l)) (innermost x) body items s s' ->
  forall i, skipn i l = items -> nth_error (heap s) arr = Some (OArr l) ->
  exists n0, forall n f, n0 <= n -> n0 <= f -> foreach_array (Bk f) n x body arr i s = Ok s' tt.
Proof.
  intros x body arr l Nb. induction 1 as [s|v items s s1 s2 o s3 Hb He Hc Hk Hr IH|v items s s1 s2 o Hb He Hc]; intros i Ei Ha.
  - exists 1. intros [|n] f L1 L2; [lia|]. cbn [foreach_array]. unfold bind at 1, look. rewrite (obj_at_nth _ _ _ Ha).
    destruct (nth_error l i) eqn:N; [|reflexivity]. assert (i < length l) by (apply nth_error_Some; congruence).
    assert (length (skipn i l) = 0) by (now rewrite Ei). rewrite skipn_length in *. lia.
  - assert (N : nth_error l i = Some v /\ skipn (i + 1) l = items).
    { clear - Ei. revert l Ei. induction i as [|i IH]; intros [|y l] Ei; cbn in *; try discriminate; [inversion Ei; subst; auto|now apply IH]. }
    destruct N as [N Es]. destruct (IH (i + 1) Es Hk) as [n0 IH']. apply late_evaluates in He. destruct He as [m He].
    exists (S (n0 + m)). intros [|n] f L1 L2; [lia|]. cbn [foreach_array]. unfold bind at 1, look. rewrite (obj_at_nth _ _ _ Ha), N.
    unfold bind at 1. rewrite (assign_innermost _ _ _ _ Hb). unfold bind.
    rewrite (common_go body f s1 s2 o Nb (He f ltac:(lia)) Hc). apply IH'; lia.
  - assert (N : nth_error l i = Some v).
    { clear - Ei. revert l Ei. induction i as [|i IH]; intros [|y l] Ei; cbn in *; try discriminate; [inversion Ei; subst; auto|now apply IH]. }
    apply late_evaluates in He. destruct He as [m He].
    exists (S m). intros [|n] f L1 L2; [lia|]. cbn [foreach_array]. unfold bind at 1, look. rewrite (obj_at_nth _ _ _ Ha), N.
    unfold bind at 1. rewrite (assign_innermost _ _ _ _ Hb). unfold bind.
    rewrite (common_stop body f s1 s2 o Nb (He f ltac:(lia)) Hc). reflexivity.
Qed.

(** foreach over an array that its body does not change is the body for each element in turn.
    Missing: an empty body ([C43_empty_body_refuted]), and bodies that change the array
    ([C43_growing_refuted]). *)
Theorem C43_array_partial : forall x e body s s1 s2 arr l,
  body <> [] -> idle s -> (forall args, e <> ECall (B "range") args) ->
  evaluates (NExpr e) s s1 arr -> nth_error (heap s1) arr = Some (OArr l) ->
  runs (fun t => nth_error (heap t) arr = Some (OArr l)) (innermost x) body l (with_ctl loop_norm s1) s2 ->
  evaluates (NStmt (SForeach x e body)) s s2 0.
Proof.
  intros x e body s s1 s2 arr l Nb I Nr He Ha Hr. apply ev_stmt; [exact I|].
  destruct (array_loop x body arr l Nb _ _ _ Hr 0 eq_refl Ha) as [n0 H].
  apply late_evaluates in He. destruct He as [m He]. exists (n0 + m). intros f L.
  assert (X : bind (E f e) (fun it => bind (look it) (fun o => match o with
     | OArr _ => bind (put (with_ctl loop_norm)) (fun _ => bind (foreach_array (Bk f) f x body it 0) (fun _ => ret 0))
     | _ => fail end)) s = Ok s2 0).
  { unfold bind at 1. rewrite (He f) by lia. unfold bind at 1, look. rewrite (obj_at_nth _ _ _ Ha). unfold bind, put.
    rewrite H by lia. reflexivity. }
  destruct e; try exact X. cbn [node_stmt]. destruct (beqb_spec f0 (B "range")) as [->|N]; [exfalso; eapply Nr; reflexivity|exact X].
Qed.

(** ** Dictionaries *)
Lemma on_key_ok : forall k v p s s', on_key k v p s = Some s' ->
  bind (make (OStr (fst p))) (fun ko => bind (assign_local k ko) (fun _ => assign_local v (snd p))) s = Ok s' tt.
Proof.
  intros k v p s s' H. unfold on_key in H. destruct (innermost k (length (heap s)) (made [OStr (fst p)] s)) as [s1|] eqn:E1; [|discriminate].
  unfold bind at 1, make. unfold bind. unfold made in E1. rewrite (assign_innermost _ _ _ _ E1). now apply assign_innermost.
Qed.
Lemma bind_assoc_s : forall {A B C} (m : M A) (k : A -> M B) (k2 : B -> M C) s, bind m (fun a => bind (k a) k2) s = bind (bind m k) k2 s.
Proof. intros. unfold bind. destruct (m s); reflexivity. Qed.
Lemma dict_loop : forall k v body d l, body <> [] -> NoDup (map fst l) ->
  forall items s s', runs (fun t => nth_error (heap t) d = Some (ODict l)) (on_key k v) body items s s' ->
  (forall p, In p items -> In p l) -> nth_error (heap s) d = Some (ODict l) ->
  late (fun f => foreach_dict (Bk f) k v body d (map fst l) (map fst items) s = Ok s' tt).
Proof.
  intros k v body d l Nb Nd. induction 1 as [s|p items s s1 s2 o s3 Hb He Hc Hk Hr IH|p items s s1 s2 o Hb He Hc]; intros Hin Ha.
  - exists 0. reflexivity.
  - specialize (IH (fun q Hq => Hin q (or_intror Hq)) Hk). destruct p as [key val].
    assert (Ev := lookup_in l key val Nd (Hin _ (or_introl eq_refl))).
    lates. cbn [map fst foreach_dict]. unfold bind at 1, look. rewrite (obj_at_nth _ _ _ Ha), map_length, Nat.eqb_refl, Ev. cbn [negb].
    assert (Hb2 := on_key_ok _ _ _ _ _ Hb). cbn [fst snd] in Hb2. rewrite bind_assoc_s in Hb2. unfold bind at 1 in Hb2.
    rewrite bind_assoc_s. unfold bind at 1. destruct (bind (make (OStr key)) (fun ko => assign_local k ko) s) as [sa []|?| |]; try discriminate.
    unfold bind at 1. rewrite Hb2. unfold bind at 1. erewrite common_go; [|exact Nb|eassumption|exact Hc]. assumption.
  - destruct p as [key val].
    assert (Ev := lookup_in l key val Nd (Hin _ (or_introl eq_refl))).
    lates. cbn [map fst foreach_dict]. unfold bind at 1, look. rewrite (obj_at_nth _ _ _ Ha), map_length, Nat.eqb_refl, Ev. cbn [negb].
    assert (Hb2 := on_key_ok _ _ _ _ _ Hb). cbn [fst snd] in Hb2. rewrite bind_assoc_s in Hb2. unfold bind at 1 in Hb2.
    rewrite bind_assoc_s. unfold bind at 1. destruct (bind (make (OStr key)) (fun ko => assign_local k ko) s) as [sa []|?| |]; try discriminate.
    unfold bind at 1. rewrite Hb2. unfold bind at 1. erewrite common_stop; [|exact Nb|eassumption|exact Hc]. reflexivity.
Qed.
(** foreach over a dictionary that its body does not change, likewise. *)
Theorem C43_dict_partial : forall k v e body s s1 s2 d l,
  body <> [] -> idle s -> evaluates (NExpr e) s s1 d ->
  nth_error (heap s1) d = Some (ODict l) -> NoDup (map fst l) ->
  runs (fun t => nth_error (heap t) d = Some (ODict l)) (on_key k v) body l (with_ctl loop_norm s1) s2 ->
  evaluates (NStmt (SForeach2 k v e body)) s s2 0.
Proof.
  intros k v e body s s1 s2 d l Nb I He Ha Nd Hr. apply ev_stmt; [exact I|].
  assert (H := dict_loop k v body d l Nb Nd _ _ _ Hr (fun p H => H) Ha).
  lates. cbn [node_stmt]. unfold bind at 1. rew. unfold bind at 1, look. rewrite (obj_at_nth _ _ _ Ha). unfold bind, put. rew. reflexivity.
Qed.

(** ** Ranges *)
Definition a_number (x : obj) : bool := match x with ONum _ => true | _ => false end.
(** the arguments of range() mean these bounds, and the bounds are ones it accepts *)
Inductive bounds : list Z -> Z -> Z -> Z -> Prop :=
| bounds_1 n : (0 <= n < 2 ^ 32)%Z -> bounds [n] 0 n 1
| bounds_2 a b : (0 <= a <= b)%Z -> (b < 2 ^ 32)%Z -> bounds [a; b] a b 1
| bounds_3 a b c : (0 <= a <= b)%Z -> (b < 2 ^ 32)%Z -> (1 <= c < 2 ^ 32)%Z -> bounds [a; b; c] a b c.
Lemma bounds_params : forall zs a b c, bounds zs a b c -> range_params zs = Some (a, b, c) /\ (0 <= a <= b)%Z /\ (b < 2 ^ 32)%Z /\ (1 <= c < 2 ^ 32)%Z.
Proof.
  intros zs a b c H. change (2 ^ 32)%Z with 4294967296%Z in *.
  assert (Y : forall lo n, (lo <= n)%Z -> (n < 4294967296)%Z -> ((lo <=? n) && (n <=? u32_max))%Z = true).
  { intros lo n L1 L2. change u32_max with 4294967295%Z. apply andb_true_intro. split; apply Z.leb_le; lia. }
  inversion H; subst; unfold range_params; rewrite ?Y by lia; repeat split; try reflexivity; lia.
Qed.
Lemma optional_ok : forall os args s s' vals, arguments os args s s' vals -> forall os',
  late (fun f => local_args f (E f) false [] (os ++ os') args s = Ok s' vals).
Proof.
  induction 1 as [s|t ts e es s s1 o s2 vs H1 H2 H3 IH]; intros os'.
  - exists 0. intros f _. cbn. now destruct os'.
  - specialize (IH os'). apply check_accepted in H2. lates. cbn [local_args app] in *. unfold bind in *. rew. reflexivity.
Qed.
Lemma local_args_ok2 : forall os os' ts args s s' vals, arguments (ts ++ os) args s s' vals ->
  late (fun f => local_args f (E f) false ts (os ++ os') args s = Ok s' vals).
Proof.
  intros os os'. induction ts as [|t ts IH]; intros args s s' vals H; [now apply optional_ok|].
  cbn [app] in H. inversion H as [|? ? e es ? s1 o ? vs H1 H2 H3]; subst. apply check_accepted in H2. apply IH in H3. clear H IH.
  lates. cbn [local_args]. unfold bind. rew. reflexivity.
Qed.
Lemma range_args_ok : forall args s s1 os zs a b c,
  arguments (repeat a_number (length args)) args s s1 os -> Forall2 (denotes (heap s1)) os (map VNum zs) ->
  bounds zs a b c -> late (fun f => range_args f (E f) args s = Ok s1 (Some (a, b, c))).
Proof.
  intros args s s1 os zs a b c HA HF HB.
  assert (Len : length args = length zs).
  { apply forall2_length in HF. rewrite map_length in HF. rewrite <- HF.
    clear - HA. assert (G : forall ts args s s' vs, arguments ts args s s' vs -> length args = length vs) by (induction 1; cbn; congruence).
    eapply G; exact HA. }
  assert (NS : nums_of os s1 = Ok s1 zs).
  { clear - HF. revert os HF. induction zs as [|z zs IH]; intros os HF; inversion HF as [|o ? os' ? D F]; subst; [reflexivity|].
    cbn [nums_of]. unfold bind, num_of, bind, look. inversion D; subst. erewrite obj_at_nth by eassumption. cbn. now rewrite IH. }
  destruct (bounds_params _ _ _ _ HB) as [EP _].
  destruct args as [|e args]; [inversion HB; subst; discriminate|].
  assert (X : exists rest, [t_num; t_num; t_num] = repeat a_number (length args) ++ rest).
  { cbn in Len. inversion HB; subst zs; cbn in Len;
      (destruct args as [|? [|? [|]]]; try discriminate Len; eexists; cbn [repeat length app]; reflexivity). }
  destruct X as [rest X].
  apply (local_args_ok2 (repeat a_number (length args)) rest [t_num]) in HA. rewrite <- X in HA.
  lates. unfold range_args, bind. rew. unfold ret. rew. reflexivity.
Qed.

Lemma range_list_ok : forall n start stop step, (0 <= start)%Z -> (1 <= step)%Z -> (stop + step <= 2 ^ 32)%Z -> 
  (Z.to_nat (stop - start) <= n)%nat -> exists l, counts start stop step l /\ late (fun f => range_list f start stop step = Some l).
Proof.
  induction n as [|n IH]; intros start stop step L0 L1 L2 Ln.
  - exists []. split; [split; [intros [|k] m H; discriminate|cbn; lia]|]. apply late_succ. exists 0. intros f _. cbn [range_list].
    destruct (Z.ltb_spec start stop); [lia|reflexivity].
  - destruct (Z.lt_ge_cases start stop) as [L|L].
    + destruct (IH (start + step)%Z stop step ltac:(lia) L1 L2 ltac:(lia)) as (l & [C1 C2] & [f0 R]).
      exists (start :: l). split.
      * split.
        -- intros [|k] m H; cbn in H; [inversion H; subst; lia|]. apply C1 in H. lia.
        -- cbn [length]. lia.
      * apply late_succ. exists f0. intros f Lf. cbn [range_list]. destruct (Z.ltb_spec start stop); [|lia].
        rewrite Z.mod_small by lia. now rewrite R.
    + exists []. split; [split; [intros [|k] m H; discriminate|cbn; lia]|]. apply late_succ. exists 0. intros f _. cbn [range_list].
      destruct (Z.ltb_spec start stop); [lia|reflexivity].
Qed.

(** range() lists exactly the numbers it should.  Missing: bounds near 2^32 ([C45_wrap_refuted]). *)
Theorem C45_range_partial : forall args s s1 os zs start stop step,
  idle s -> arguments (repeat a_number (length args)) args s s1 os ->
  Forall2 (denotes (heap s1)) os (map VNum zs) -> bounds zs start stop step ->
  (stop + step <= 2 ^ 32)%Z ->
  exists l s2 o, counts start stop step l /\
    evaluates (NExpr (ECall (B "range") args)) s s2 o /\ denotes (heap s2) o (VArr (map VNum l)).
Proof.
  intros args s s1 os zs a b c I HA HF HB Hw. destruct (bounds_params _ _ _ _ HB) as (_ & B1 & B2 & B3).
  destruct (range_list_ok _ a b c ltac:(lia) ltac:(lia) Hw (le_n _)) as (l & HC & HR).
  assert (H := range_args_ok _ _ _ _ _ _ _ _ HA HF HB). clear HA HF.
  exists l. do 2 eexists. split; [exact HC|]. split.
  - apply ev_expr; [exact I|]. lates. cbn [node_expr]. unfold call.
    match goal with |- context [kernel ?a ?b ?c ?d ?e] => let x := eval hnf in (kernel a b c d e) in change (kernel a b c d e) with x end.
    cbv iota. unfold absorb, bind. rew. reflexivity.
  - cbn [heap with_heap]. eapply dn_arr.
    + rewrite app_assoc, nth_error_app2 by (rewrite app_length, map_length; lia).
      rewrite app_length, map_length, Nat.sub_diag. reflexivity.
    + assert (G : forall l h h', Forall2 (denotes (h ++ map ONum l ++ h')) (seq (length h) (length l)) (map VNum l)).
      { clear. induction l as [|z l IH]; intros h h'; cbn [length seq map]; constructor.
        - apply dn_num. rewrite nth_error_app2, Nat.sub_diag by lia. reflexivity.
        - specialize (IH (h ++ [ONum z]) h'). rewrite app_length, Nat.add_1_r, <- app_assoc in IH. exact IH. }
      apply G.
Qed.

Lemma range_loop : forall x body stop step, body <> [] -> (1 <= step)%Z -> (stop + step <= 2 ^ 32)%Z ->
  forall items s s', runs (fun _ => True) (on_number x) body items s s' ->
  forall i, (0 <= i)%Z -> counts i stop step items ->
  exists n0, forall n f, n0 <= n -> n0 <= f -> foreach_range (Bk f) n x body i stop step s = Ok s' tt.
Proof.
  intros x body stop step Nb L1 L2. induction 1 as [s|v items s s1 s2 o s3 Hb He Hc Hk Hr IH|v items s s1 s2 o Hb He Hc]; intros i L0 [C1 C2].
  - exists 1. intros [|n] f Ln Lf; [lia|]. cbn [foreach_range]. cbn in C2. destruct (Z.ltb_spec i stop); [lia|reflexivity].
  - destruct (C1 0%nat v eq_refl) as [Ei Li]. assert (Ev : v = i) by lia. clear Ei. subst v.
    destruct (IH (i + step)%Z ltac:(lia)) as [n0 IH'].
    { split; [intros k m H; specialize (C1 (S k) m H); lia|]. cbn [length] in C2. lia. }
    apply late_evaluates in He. destruct He as [m He]. exists (S (n0 + m)). intros [|n] f Ln Lf; [lia|]. cbn [foreach_range].
    destruct (Z.ltb_spec i stop); [|lia]. unfold bind at 1, make. unfold on_number, made in Hb. unfold bind at 1.
    rewrite (assign_innermost _ _ _ _ Hb). unfold bind.
    rewrite (common_go body f s1 s2 o Nb (He f ltac:(lia)) Hc). rewrite Z.mod_small by lia. apply IH'; lia.
  - destruct (C1 0%nat v eq_refl) as [Ei Li]. assert (Ev : v = i) by lia. clear Ei. subst v.
    apply late_evaluates in He. destruct He as [m He]. exists (S m). intros [|n] f Ln Lf; [lia|]. cbn [foreach_range].
    destruct (Z.ltb_spec i stop); [|lia]. unfold bind at 1, make. unfold on_number, made in Hb. unfold bind at 1.
    rewrite (assign_innermost _ _ _ _ Hb). unfold bind.
    rewrite (common_stop body f s1 s2 o Nb (He f ltac:(lia)) Hc). reflexivity.
Qed.
(** foreach over range(): the numbers that range() lists.  Missing: as for [C45_range_partial]. *)
Theorem C43_range_partial : forall x args body s s1 s2 os zs start stop step l,
  body <> [] -> idle s -> arguments (repeat a_number (length args)) args s s1 os ->
  Forall2 (denotes (heap s1)) os (map VNum zs) -> bounds zs start stop step ->
  (stop + step <= 2 ^ 32)%Z -> counts start stop step l ->
  runs (fun _ => True) (on_number x) body l (with_ctl loop_norm s1) s2 ->
  evaluates (NStmt (SForeach x (ECall (B "range") args) body)) s s2 0.
Proof.
  intros x args body s s1 s2 os zs a b c l Nb I HA HF HB Hw HC Hr. destruct (bounds_params _ _ _ _ HB) as (_ & B1 & B2 & B3).
  assert (H := range_args_ok _ _ _ _ _ _ _ _ HA HF HB). clear HA HF. 
  destruct (range_loop x body b c Nb ltac:(lia) Hw l _ _ Hr a ltac:(lia) HC) as [n0 HL].
  apply ev_stmt; [exact I|]. destruct H as [m H]. exists (n0 + m). intros f L. cbn [node_stmt].
  change (beqb (B "range") (B "range")) with true. cbv iota. unfold bind at 1. rewrite H by lia. unfold bind, put. rewrite HL by lia. reflexivity.
Qed.
(** What a pass sees: the loop's variable is the element, and the others are as they were. *)
Theorem C43_variable : forall x o s s1, well_formed s -> innermost x o s = Some s1 ->
  get_variable s1 x = Some o /\ (forall y, y <> x -> get_variable s1 y = get_variable s y) /\ heap s1 = heap s.
Proof.
  intros x o s s1 W H. assert (H' := H). apply innermost_heap in H'. apply assign_innermost in H. apply assign_local_ok in H.
  destruct H as (st & i & Est & ->). split; [|split].
  - unfold get_variable. now rewrite (bound_last s x i o st).
  - intros y N. apply get_same_v. apply bound_other. congruence.
  - apply H'.
Qed.
End Loop.
Print Assumptions C43_array_partial.
Print Assumptions C43_dict_partial.
Print Assumptions C43_range_partial.
Print Assumptions C43_variable.
Print Assumptions C45_range_partial.

(** ** Cases *)
Definition item (e : expr) := SPlusAssign (B "out") e.
Definition loop_body : list stmt :=
  [SIf (ECmp CEq (EVar (B "x")) (EStr (B "b"))) [SContinue] [];
   SIf (ECmp CEq (EVar (B "x")) (EStr (B "d"))) [SBreak] [];
   item (EVar (B "x"))].
Ltac pass := eapply runs_next; [vm_compute; reflexivity|exists 20; vm_compute; reflexivity|discriminate|vm_compute; reflexivity|].
(** foreach x : ['a', 'b', 'c', 'd', 'e'] with a continue, a break and an assignment *)
Example C43_case :
  let s := after [SAssign (B "out") (EStr [])] in
  let l := EArr (map (fun t => EStr (B t)) ["a"; "b"; "c"; "d"; "e"]%string) in
  exists s1 s2 arr l', evaluates none no_methods (NExpr l) s s1 arr /\
    nth_error (heap s1) arr = Some (OArr l') /\
    runs none no_methods (fun t => nth_error (heap t) arr = Some (OArr l')) (innermost (B "x")) loop_body l' (with_ctl loop_norm s1) s2 /\
    has_value s2 (B "out") (VStr (B "ac")).
Proof.
  cbv zeta. do 4 eexists. split; [exists 20; vm_compute; reflexivity|]. split; [vm_compute; reflexivity|]. split.
  - do 3 pass. eapply runs_break; [vm_compute; reflexivity|exists 20; vm_compute; reflexivity|reflexivity].
  - eexists. split; [vm_compute; reflexivity|]. apply dn_str. vm_compute. reflexivity.
Qed.
Example C43_dict_case :
  let s := after [SAssign (B "out") (EStr [])] in
  let l := EDict [(EStr (B "a"), EStr (B "1")); (EStr (B "b"), EStr (B "2"))] in
  let body := [item (EVar (B "k")); item (EVar (B "v"))] in
  exists s1 s2 d l', evaluates none no_methods (NExpr l) s s1 d /\
    nth_error (heap s1) d = Some (ODict l') /\ NoDup (map fst l') /\
    runs none no_methods (fun t => nth_error (heap t) d = Some (ODict l')) (on_key (B "k") (B "v")) body l' (with_ctl loop_norm s1) s2 /\
    has_value s2 (B "out") (VStr (B "a1b2")).
Proof.
  cbv zeta. do 4 eexists. split; [exists 20; vm_compute; reflexivity|]. split; [vm_compute; reflexivity|]. split.
  { cbn. constructor; [intros [H|[]]; discriminate|constructor; [intros []|constructor]]. } split.
  - do 2 pass. apply runs_done.
  - eexists. split; [vm_compute; reflexivity|]. apply dn_str. vm_compute. reflexivity.
Qed.
(** range(2, 9, 3), alone and in a loop *)
Example C45_case :
  let args := [ENum 2; ENum 9; ENum 3]%Z in
  let s := after [SAssign (B "out") (ENum 0)] in
  (exists s1 s2 os, arguments none no_methods (repeat a_number 3) args s s1 os /\
     Forall2 (denotes (heap s1)) os (map VNum [2; 9; 3]%Z) /\
     runs none no_methods (fun _ => True) (on_number (B "i")) [item (EVar (B "i"))] [2; 5; 8]%Z (with_ctl loop_norm s1) s2 /\
     has_value s2 (B "out") (VNum 15)) /\
  bounds [2; 9; 3]%Z 2 9 3 /\ counts 2 9 3 [2; 5; 8]%Z.
Proof.
  cbv zeta. split; [|split].
  - do 3 eexists. split; [|split; [|split]].
    + assert (A : forall h o n, nth_error h disabler_id = Some ODisabler -> nth_error h o = Some (ONum n) ->
        forall s, heap s = h -> accepted a_number s o).
      { intros h o n Hd Ho s <-. split; [exact Hd|]. exists (VNum n), (ONum n). split; [now apply dn_num|]. split; [intros D; inversion D|].
        split; [exact Ho|]. split; [discriminate|reflexivity]. }
      do 3 (eapply arguments_cons; [exists 5; vm_compute; reflexivity|eapply A; [| |reflexivity]; vm_compute; reflexivity|]). apply arguments_nil.
    + do 3 (constructor; [apply dn_num; vm_compute; reflexivity|]). constructor.
    + do 3 (eapply runs_next; [vm_compute; reflexivity|exists 20; vm_compute; reflexivity|discriminate|exact Logic.I|]). apply runs_done.
    + eexists. split; [vm_compute; reflexivity|]. apply dn_num. vm_compute. reflexivity.
  - apply bounds_3; lia.
  - split; [|cbn; lia]. intros [|[|[|k]]] n H; cbn in H; try (destruct k; discriminate); inversion H; subst; lia.
Qed.

(** ** What is false *)
(** an empty body: the variable should have been all the elements in turn, and is left at the first *)
Theorem C43_empty_body_refuted : exists s',
  evaluates none no_methods (NStmt (SForeach (B "x") (EArr [ENum 1; ENum 2]%Z) [])) start_state s' 0 /\
  has_value s' (B "x") (VNum 1).
Proof.
  eexists. split; [exists 10; vm_compute; reflexivity|]. eexists. split; [vm_compute; reflexivity|]. apply dn_num. vm_compute. reflexivity.
Qed.
Print Assumptions C43_empty_body_refuted.

Section Growing.
Notation ev := (evaluates none no_methods).
Definition grow_body : list stmt := [SPlusAssign (B "a") (EArr [ENum 0])].
Definition growing (arr i : nat) (s : state) : Prop :=
  idle s /\ cur s = 0 /\ stacks s = [[0]] /\ length (scopes s) = 1 /\ nth_error (heap s) disabler_id = Some ODisabler /\
  dict_lookup (scope_at s 0) (B "a") = Some arr /\ exists l, nth_error (heap s) arr = Some (OArr l) /\ i < length l.
Lemma grow_pass : forall arr i s, growing arr i s ->
  exists s', ev (NBlock grow_body) s s' 0 /\ growing arr (i + 1) s'.
Proof.
  intros arr i s (I & C & St & Ls & Hd & Ha & l & Hl & Li).
  set (n := length (heap s)).
  assert (Ln : arr < n) by (apply nth_error_Some; congruence).
  assert (E0 : ev (NExpr (ENum 0)) s (with_heap (heap s ++ [ONum 0]) s) n).
  { apply ev_expr; [exact I|]. exists 0. reflexivity. }
  set (s1 := with_heap (heap s ++ [ONum 0]) s) in *.
  assert (I1 : idle s1) by exact I.
  assert (E1 : ev (NExpr (EArr [ENum 0])) s (with_heap (heap s1 ++ [OArr [n]]) s1) (length (heap s1))).
  { apply ev_expr; [exact I|]. lates. cbn [node_expr eval_list]. unfold bind. rew. reflexivity. }
  set (s2 := with_heap (heap s1 ++ [OArr [n]]) s1) in *.
  assert (Hl2 : nth_error (heap s2) arr = Some (OArr l)).
  { unfold s2, s1. cbn [heap with_heap]. rewrite !nth_error_app1; [exact Hl|exact Ln|rewrite app_length; fold n; lia]. }
  assert (Hr2 : nth_error (heap s2) (length (heap s1)) = Some (OArr [n])).
  { unfold s2. cbn [heap with_heap]. now rewrite nth_error_app2, Nat.sub_diag by lia. }
  assert (Gs : get_local_variable s (B "a") = Some (0, arr)).
  { unfold get_local_variable. rewrite C, St. cbn [nth find_scope]. now rewrite Ha. }
  assert (Nd : arr <> disabler_id) by (intros ->; congruence).
  assert (Ev : ev (NExpr (EVar (B "a"))) s s arr).
  { apply ev_var; [exact I|]. split; [reflexivity|]. unfold get_variable. now rewrite Gs. }
  set (s3 := with_heap (upd arr (OArr (l ++ [n])) (heap s2)) s2).
  exists (bound 0 (B "a") arr s3). split.
  - apply block_steps; [exact I|]. eapply steps_cons; [|constructor]. apply ev_stmt; [exact I|]. lates. cbn [node_stmt].
    assert (A : arithmetic (fun e => interp none no_methods f (NExpr e)) ArAdd true (EVar (B "a")) (EArr [ENum 0]) s = Ok s3 arr).
    { unfold arithmetic. unfold bind at 1. rew. unfold bind at 1. rew.
      destruct (Nat.eqb_spec arr disabler_id); [contradiction|]. destruct (Nat.eqb_spec (length (heap s1)) disabler_id) as [Z|Z].
      { exfalso. rewrite Z in Hr2. assert (D : nth_error (heap s2) disabler_id = Some ODisabler).
        { unfold s2, s1. cbn [heap with_heap]. assert (disabler_id < length (heap s)) by (apply nth_error_Some; congruence).
          rewrite !nth_error_app1; [exact Hd|assumption|rewrite app_length; lia]. }
        congruence. }
      cbn [orb]. unfold bind, look. rewrite (obj_at_nth _ _ _ Hl2), (obj_at_nth _ _ _ Hr2). reflexivity. }
    unfold bind at 1. rewrite A. unfold bind, reassign.
    replace (get_local_variable s3 (B "a")) with (Some (0, arr)); [reflexivity|]. symmetry. rewrite <- Gs. apply get_same; reflexivity.
  - assert (L2 : arr < length (heap s2)) by (apply nth_error_Some; congruence).
    split; [exact I|]. split; [exact C|]. split; [exact St|]. split; [unfold bound; cbn [scopes with_scopes]; rewrite upd_length; exact Ls|].
    split.
    { unfold bound, s3. cbn [heap with_scopes with_heap]. rewrite nth_error_upd_other by exact Nd. unfold s2, s1. cbn [heap with_heap].
      assert (disabler_id < length (heap s)) by (apply nth_error_Some; congruence).
      rewrite !nth_error_app1; [exact Hd|assumption|rewrite app_length; lia]. }
    split.
    { unfold scope_at, bound. cbn [scopes with_scopes]. rewrite nth_upd_same by (unfold s3, s2, s1; cbn [scopes with_heap]; lia).
      apply lookup_set_same. }
    exists (l ++ [n]). split; [|rewrite app_length; cbn; lia].
    unfold bound, s3. cbn [heap with_scopes with_heap]. now rewrite nth_error_upd_same.
Qed.
Lemma grow_loop : forall n f arr i s, growing arr i s ->
  foreach_array (fun b => interp none no_methods f (NBlock b)) n (B "x") grow_body arr i s = OutOfFuel.
Proof.
  induction n as [|n IH]; intros f arr i s G; [reflexivity|].
  assert (G' := G). destruct G' as (I & C & St & Ls & Hd & Ha & l & Hl & Li). cbn [foreach_array]. unfold bind at 1, look.
  rewrite (obj_at_nth _ _ _ Hl). destruct (nth_error l i) as [v|] eqn:N; [|apply nth_error_None in N; lia].
  unfold bind at 1. unfold assign_local. rewrite C, St. cbn [nth rev app]. unfold set_in_scope, put.
  assert (G1 : growing arr i (bound 0 (B "x") v s)).
  { split; [exact I|]. split; [exact C|]. split; [exact St|]. split; [unfold bound; cbn [scopes with_scopes]; rewrite upd_length; exact Ls|].
    split; [exact Hd|]. split; [|exists l; auto].
    unfold scope_at, bound. cbn [scopes with_scopes]. rewrite nth_upd_same by lia. rewrite lookup_set_other by discriminate. exact Ha. }
  change (with_scopes (upd 0 (dict_set (scope_at s 0) (B "x") v) (scopes s)) s) with (bound 0 (B "x") v s).
  destruct (grow_pass _ _ _ G1) as (s' & E & G2).
  unfold bind. destruct (interp none no_methods f (NBlock grow_body) (bound 0 (B "x") v s)) as [t o|t| |] eqn:R.
  - assert (X : t = s' /\ o = 0) by (eapply evaluates_det; [exists f; exact R|exact E]). destruct X as [-> ->].
    assert (I2 := proj1 G2). rewrite (common_go none no_methods grow_body f _ s' 0); [|discriminate|exact R|rewrite (proj1 I2); discriminate].
    rewrite norm_norm by apply I2. now apply IH.
  - exfalso. apply late_evaluates in E. destruct E as [m E]. 
    destruct (interp_mono none no_methods f (f + m) (NBlock grow_body) ltac:(lia) (bound 0 (B "x") v s)) as [Z|Z]; rewrite R in Z; [discriminate|].
    rewrite E in Z by lia. discriminate.
  - exfalso. apply late_evaluates in E. destruct E as [m E]. 
    destruct (interp_mono none no_methods f (f + m) (NBlock grow_body) ltac:(lia) (bound 0 (B "x") v s)) as [Z|Z]; rewrite R in Z; [discriminate|].
    rewrite E in Z by lia. discriminate.
  - cbn [foreach_common grow_body]. unfold bind. rewrite R. reflexivity.
Qed.
End Growing.
(** [a = [1]], then foreach x : a with body a += [0]: the loop never ends *)
Theorem C43_growing_refuted :
  let s := after [SAssign (B "a") (EArr [ENum 1])] in
  has_value s (B "a") (VArr [VNum 1]) /\
  diverges none no_methods (NStmt (SForeach (B "x") (EVar (B "a")) [SPlusAssign (B "a") (EArr [ENum 0])])) s.
Proof.
  cbv zeta. split.
  - eexists. split; [vm_compute; reflexivity|]. eapply dn_arr; [vm_compute; reflexivity|]. constructor; [|constructor].
    apply dn_num. vm_compute. reflexivity.
  - set (s := after _). assert (G : exists arr, get_variable s (B "a") = Some arr /\ growing arr 0 s).
    { eexists. split; [vm_compute; reflexivity|]. split; [split; reflexivity|]. do 4 (split; [vm_compute; reflexivity|]).
      split; [vm_compute; reflexivity|]. eexists. split; [vm_compute; reflexivity|]. cbn. lia. }
    destruct G as (arr & Ga & G). assert (I := proj1 G).
    intros [|f]; [reflexivity|]. rewrite interp_stmt by exact I. cbn [node_stmt].
    destruct f as [|f]; [reflexivity|]. unfold bind at 1. rewrite interp_expr by exact I. cbn [node_expr]. unfold bind at 1, get. rewrite Ga. cbv beta iota.
    unfold ret at 1. destruct G as (I' & C & St & Ls & Hd & Ha & l & Hl & Li). unfold bind at 1, look. rewrite (obj_at_nth _ _ _ Hl).
    unfold bind at 1, put. rewrite norm_norm by apply I. unfold bind. change [SPlusAssign (B "a") (EArr [ENum 0])] with grow_body.
    rewrite grow_loop; [reflexivity|]. repeat (split; [assumption|]). exists l. auto.
Qed.
Print Assumptions C43_growing_refuted.

(** range(0, 4294967295, 2) never ends: the counter wraps around *)
Lemma wrap_loop : forall f i, (0 <= i < 2 ^ 32)%Z -> (i mod 2 = 0)%Z -> range_list f i (2 ^ 32 - 1) 2 = None.
Proof.
  induction f as [|f IH]; intros i L Ev; [reflexivity|]. cbn [range_list]. change (2 ^ 32)%Z with 4294967296%Z in *.
  destruct (Z.ltb_spec i (4294967296 - 1)) as [H|H].
  - rewrite IH; [reflexivity|apply Z.mod_pos_bound; lia|].
    destruct (Z.eq_dec i 4294967294) as [->|N]; [reflexivity|]. 
    assert (i = 4294967295 \/ i < 4294967294)%Z as [->|] by lia; [discriminate|].
    rewrite (Z.mod_small (i + 2) 4294967296) by lia. rewrite Z.add_mod, Ev by lia. reflexivity.
  - assert (i = 4294967295)%Z by lia. subst i. discriminate.
Qed.
Theorem C45_wrap_refuted :
  bounds [0; 4294967295; 2]%Z 0 4294967295 2 /\
  diverges none no_methods (NExpr (ECall (B "range") [ENum 0; ENum 4294967295; ENum 2]%Z)) start_state.
Proof.
  split; [apply bounds_3; lia|]. intros [|f]; [reflexivity|].
  rewrite interp_expr by (split; reflexivity). cbn [node_expr]. unfold call.
  match goal with |- context [kernel ?a ?b ?c ?d ?e] => let x := eval hnf in (kernel a b c d e) in change (kernel a b c d e) with x end.
  cbv iota. unfold absorb. destruct f as [|f]; [reflexivity|].
  assert (W := wrap_loop (S f) 0 ltac:(lia) eq_refl). change (2 ^ 32 - 1)%Z with 4294967295%Z in W. 
  unfold bind at 1. 
  match goal with |- context [range_args ?a ?b ?c ?d] => let x := eval vm_compute in (range_args a b c d) in assert (R : range_args a b c d = x) by (vm_compute; reflexivity); rewrite R end.
  cbv beta iota. rewrite W. reflexivity.
Qed.
Print Assumptions C45_wrap_refuted.
