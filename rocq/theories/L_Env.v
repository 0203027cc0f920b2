(** Lemmas for P_Env. *)
From Verif Require Import Base M_Tree S_Tree L_Tree M_Escape M_Env S_Env.

Scheme value_ind2 := Induction for value Sort Prop
  with text_ind2 := Induction for text Sort Prop.
Combined Scheme value_text_ind from value_ind2, text_ind2.

Lemma tsize_inorder : forall V (t : tree V), tsize t = length (inorder t).
Proof. induction t as [|l IHl k v h r IHr]; cbn; [reflexivity|]. rewrite app_length. cbn. lia. Qed.

Lemma built_in_dec : forall var, built_in var \/ ~ built_in var.
Proof.
  intros var. unfold built_in. destruct (beqb_spec var (B "in")); [tauto|].
  destruct (beqb_spec var (B "in_newline")); [tauto|]. destruct (beqb_spec var (B "out")); tauto.
Qed.

Lemma joinb_removelast : forall sep (l : list bytes), l <> [] ->
  removelast (concat (map (fun n => n ++ [sep]) l)) = joinb [sep] l.
Proof.
  intros sep l. induction l as [|x l IH]; intros N; [congruence|]. destruct l as [|y l].
  - cbn. rewrite app_nil_r, removelast_last. reflexivity.
  - assert (H : concat (map (fun n => n ++ [sep]) (y :: l)) <> []) by (cbn; destruct y; discriminate).
    cbn [map concat] in *. rewrite <- app_assoc, removelast_app by (cbn; discriminate).
    change ([sep] ++ (y ++ [sep]) ++ concat (map (fun n => n ++ [sep]) l)) with (sep :: ((y ++ [sep]) ++ concat (map (fun n => n ++ [sep]) l))).
    change (joinb [sep] (x :: y :: l)) with (x ++ [sep] ++ joinb [sep] (y :: l)). f_equal.
    rewrite <- IH by discriminate. cbn [app]. destruct ((y ++ [sep]) ++ concat (map (fun n => n ++ [sep]) l)) eqn:E; [congruence|reflexivity].
Qed.

Lemma pathlist_listed : forall l sep, pathlist l sep = listed nodepath sep l.
Proof.
  intros [|a [|b l]] sep; [reflexivity|reflexivity|]. unfold pathlist, listed. f_equal.
  rewrite <- joinb_removelast by discriminate. now rewrite map_map.
Qed.
Lemma plain_pathlist_listed : forall l sep, plain_pathlist l sep = listed (fun p => p) sep l.
Proof.
  intros [|a [|b l]] sep; [reflexivity|reflexivity|]. unfold plain_pathlist, listed. f_equal.
  rewrite <- joinb_removelast by discriminate. now rewrite map_id.
Qed.

(** The trees of an edge are built from its definitions. *)
Record represents (d : defs) (e : edge) : Prop := {
  R_in : firstn (e_inimpidx e) (e_in e) = inputs d;
  R_out : firstn (e_outimpidx e) (e_out e) = outputs d;
  R_own : mkscope (own d) = Some (e_own e);
  R_rule : mkrule (rule d) = Some (e_rulevars e);
  R_scopes : Forall2 (fun bs t => mkscope bs = Some t) (scopes d) (e_parents e)
}.

Lemma insert_all_find : forall V (kvs : list (bytes * V)) t, insert_all Leaf kvs = Some t ->
  ordered t /\ forall key, treefind t key = last_value kvs key.
Proof.
  intros V kvs t E. destruct (insert_all_spec kvs Leaf (fun _ => None)) as (t' & E' & A & O & F).
  - split; exact I.
  - constructor.
  - reflexivity.
  - rewrite E in E'. injection E' as <-. auto.
Qed.

Lemma envvar_innermost : forall ss ts var, Forall2 (fun bs t => mkscope bs = Some t) ss ts ->
  envvar ts var = innermost ss var.
Proof.
  intros ss ts var F. induction F as [|s t ss ts H F IH]; [reflexivity|]. cbn.
  destruct (insert_all_find _ _ _ H) as [_ X]. rewrite X, IH. reflexivity.
Qed.

Section Eval.
Variables (d : defs) (e : edge) (esc : bool).
Hypothesis R : represents d e.
Let show : bytes -> bytes := if esc then nodepath else fun p => p.

(** One unfolding of the code, in terms of the definitions. *)
Lemma edgevar_cases : forall fuel marked var,
  (exists v, edgevar_at fuel e esc marked var = Val v /\ value show d var v /\
             forall y, ~ mentions d var y) \/
  (exists ps, ~ built_in var /\ last_value (own d) var = None /\ last_value (rule d) var = Some ps /\
     edgevar_at fuel e esc marked var =
       if existsb (beqb var) marked then Cycle var
       else match fuel with 0 => Fuel | S f => pieces (edgevar_at f e esc (var :: marked)) ps end).
Proof.
  intros fuel marked var.
  destruct (insert_all_find _ _ _ (R_own _ _ R)) as [_ FO]. destruct (insert_all_find _ _ _ (R_rule _ _ R)) as [_ FR].
  assert (P : forall l sep, (if esc then pathlist else plain_pathlist) l sep = listed show sep l).
  { intros l sep. unfold show. destruct esc; [apply pathlist_listed|apply plain_pathlist_listed]. }
  assert (NB : built_in var -> forall y, ~ mentions d var y) by (intros H y (X & _); contradiction).
  destruct (beqb_spec var (B "in")) as [->|N1].
  { left. eexists. split; [destruct fuel; reflexivity|]. rewrite (R_in _ _ R), P. split; [constructor|]. apply NB. now left. }
  destruct (beqb_spec var (B "in_newline")) as [->|N2].
  { left. eexists. split; [destruct fuel; reflexivity|]. rewrite (R_in _ _ R), P. split; [constructor|]. apply NB. right. now left. }
  destruct (beqb_spec var (B "out")) as [->|N3].
  { left. eexists. split; [destruct fuel; reflexivity|]. rewrite (R_out _ _ R), P. split; [constructor|]. apply NB. right. now right. }
  assert (U : ~ built_in var) by (unfold built_in; tauto).
  assert (E : edgevar_at fuel e esc marked var =
    match last_value (own d) var with
    | Some v => Val (Some v)
    | None => match last_value (rule d) var with
              | None => Val (innermost (scopes d) var)
              | Some str => if existsb (beqb var) marked then Cycle var
                            else match fuel with 0 => Fuel | S f => pieces (edgevar_at f e esc (var :: marked)) str end
              end
    end).
  { rewrite <- FO, <- FR, <- (envvar_innermost _ _ var (R_scopes _ _ R)).
    destruct fuel; cbn [edgevar_at]; destruct (beqb_spec var (B "in")); try contradiction;
      destruct (beqb_spec var (B "in_newline")); try contradiction;
      destruct (beqb_spec var (B "out")); try contradiction; reflexivity. }
  destruct (last_value (own d) var) as [v|] eqn:O.
  { left. exists (Some v). split; [exact E|]. split; [now apply v_own|]. intros y (_ & X & _). congruence. }
  destruct (last_value (rule d) var) as [ps|] eqn:L.
  { right. exists ps. auto. }
  left. eexists. split; [exact E|]. split; [now apply v_scope|]. intros y (_ & _ & ps & X & _). congruence.
Qed.

Lemma reaches_trans : forall x y z, reaches d x y -> reaches d y z -> reaches d x z.
Proof.
  intros x y z H. induction H as [x y M|x m y M H IH]; intros H2.
  - now apply (r_more _ _ y).
  - apply (r_more _ _ m); auto.
Qed.

Definition keys : list bytes := map fst (inorder (e_rulevars e)).

Lemma edgevar_spec : forall fuel marked var,
  NoDup marked -> incl marked keys -> length keys < fuel + length marked ->
  (forall x, In x marked -> reaches d x var) ->
  match edgevar_at fuel e esc marked var with
  | Val v => value show d var v
  | Cycle _ => circular d var
  | Fuel => False
  end.
Proof.
  induction fuel as [|fuel IH]; intros marked var ND IC LT RE.
  - exfalso. pose proof (NoDup_incl_length ND IC). cbn in LT. lia.
  - destruct (edgevar_cases (S fuel) marked var) as [(v & E & V & _)|(ps & U & O & L & E)]; rewrite E; auto.
    destruct (existsb (beqb var) marked) eqn:X.
    { apply existsb_exists in X as (x & Hx & Ex). destruct (beqb_spec var x) as [->|]; [|discriminate].
      exists x. split; [now left|]. now apply RE. }
    assert (NX : ~ In var marked).
    { intros H. assert (existsb (beqb var) marked = true); [|congruence]. apply existsb_exists. exists var. split; auto.
      destruct (beqb_spec var var); congruence. }
    assert (KV : In var keys).
    { destruct (insert_all_find _ _ _ (R_rule _ _ R)) as [OR FR]. rewrite <- FR in L.
      apply treefind_spec in L; auto. apply in_map_iff. exists (var, ps). auto. }
    assert (SUB : forall y, In (PVar y) ps ->
      match edgevar_at fuel e esc (var :: marked) y with Val v => value show d y v | Cycle _ => circular d y | Fuel => False end).
    { intros y Hy. assert (M : mentions d var y) by (split; auto; split; auto; exists ps; auto). apply IH.
      - constructor; auto.
      - intros x [<-|Hx]; auto.
      - cbn. lia.
      - intros x [<-|Hx]; [now apply r_one|]. apply (reaches_trans _ var); auto. now apply r_one. }
    assert (CI : forall y, In (PVar y) ps -> circular d y -> circular d var).
    { intros y Hy (z & Z1 & Z2). exists z. split; auto. right.
      assert (M : mentions d var y) by (split; auto; split; auto; exists ps; auto).
      destruct Z1 as [->|Z1]; [now apply r_one|now apply (r_more _ _ y)]. }
    remember (edgevar_at fuel e esc (var :: marked)) as get eqn:G. clear G.
    assert (TX : forall qs, incl qs ps -> match pieces get qs with
       | Val (Some s) => text show d qs s | Val None => False | Cycle _ => circular d var | Fuel => False end).
    { induction qs as [|p qs IHq]; intros IQ; cbn [pieces]; [constructor|].
      specialize (IHq (fun x Hx => IQ x (or_intror Hx))).
      destruct p as [s|y].
      - destruct (pieces get qs) as [[t|]|c|]; auto. now constructor.
      - specialize (SUB y (IQ _ (or_introl eq_refl))). specialize (CI y (IQ _ (or_introl eq_refl))).
        destruct (get y) as [x|c|]; auto. destruct (pieces get qs) as [[t|]|c|]; auto.
        change (match x with Some s => s | None => [] end) with (or_empty x). now constructor. }
    specialize (TX ps (incl_refl _)). destruct (pieces get ps) as [[s|]|c|]; auto; [|contradiction].
    now apply (v_rule _ _ _ ps).
Qed.

Lemma edgevar_total : forall var,
  match edgevar e esc var with
  | Val v => value show d var v
  | Cycle _ => circular d var
  | Fuel => False
  end.
Proof.
  intros var. apply edgevar_spec; [constructor|easy| |easy]. unfold keys. rewrite map_length, tsize_inorder. cbn. lia.
Qed.
End Eval.

(** Values are unique, and exist only without circularity. *)
Lemma value_unique : forall show d,
  (forall var v, value show d var v -> forall v', value show d var v' -> v = v') /\
  (forall ps s, text show d ps s -> forall s', text show d ps s' -> s = s').
Proof.
  intros show d. apply value_text_ind.
  - intros v' H. inversion H; subst; try reflexivity; exfalso; match goal with X : ~ built_in _ |- _ => apply X end; unfold built_in; auto.
  - intros v' H. inversion H; subst; try reflexivity; exfalso; match goal with X : ~ built_in _ |- _ => apply X end; unfold built_in; auto.
  - intros v' H. inversion H; subst; try reflexivity; exfalso; match goal with X : ~ built_in _ |- _ => apply X end; unfold built_in; auto.
  - intros var v U O v' H. inversion H; subst; try congruence; exfalso; apply U; unfold built_in; auto.
  - intros var ps s U O L T IH v' H. inversion H; subst; try (exfalso; apply U; unfold built_in; auto; fail); try congruence.
    assert (ps0 = ps) by congruence. subst. f_equal. auto.
  - intros var U O L v' H. inversion H; subst; try congruence; exfalso; apply U; unfold built_in; auto.
  - intros s' H. now inversion H.
  - intros s ps t T IH s' H. inversion H; subst. f_equal. auto.
  - intros v x ps t V IHv T IHt s' H. inversion H; subst. f_equal; [f_equal|]; auto.
Qed.

Lemma value_acc : forall show d,
  (forall var v, value show d var v -> Acc (fun y x => mentions d x y) var) /\
  (forall ps s, text show d ps s -> forall y, In (PVar y) ps -> Acc (fun y x => mentions d x y) y).
Proof.
  intros show d. apply value_text_ind.
  - constructor. intros y (U & _). exfalso. apply U. unfold built_in. auto.
  - constructor. intros y (U & _). exfalso. apply U. unfold built_in. auto.
  - constructor. intros y (U & _). exfalso. apply U. unfold built_in. auto.
  - intros var v U O. constructor. intros y (_ & X & _). congruence.
  - intros var ps s U O L T IH. constructor. intros y (_ & _ & ps' & L' & H). apply IH. congruence.
  - intros var U O L. constructor. intros y (_ & _ & ps' & L' & _). congruence.
  - intros y [].
  - intros s ps t T IH y [H|H]; [discriminate|auto].
  - intros v x ps t V IHv T IHt y [H|H]; [|auto]. injection H as <-. exact IHv.
Qed.

Lemma acc_reaches : forall d x y, reaches d x y -> Acc (fun y x => mentions d x y) x -> Acc (fun y x => mentions d x y) y.
Proof. intros d x y H. induction H as [x y M|x m y M H IH]; intros A; [now apply A|]. apply IH. now apply A. Qed.

Lemma acc_irrefl : forall d x, Acc (fun y x => mentions d x y) x -> ~ reaches d x x.
Proof.
  intros d x A. induction A as [x A IH]. intros H. inversion H as [? ? M|? m ? M H']; subst.
  - apply (IH x M). now apply r_one.
  - apply (IH m M). clear -M H'. revert M. induction H' as [a b N|a c b N H' IH']; intros M.
    + apply (r_more _ _ b); auto. now apply r_one.
    + apply (r_more _ _ c); auto.
      assert (X : forall u v w, reaches d u v -> mentions d v w -> reaches d u w).
      { intros u v w Huv. induction Huv as [u v M'|u k v M' Huv IHuv]; intros Hw; [apply (r_more _ _ v); auto; now apply r_one|].
        apply (r_more _ _ k); auto. }
      now apply (X c b a).
Qed.

Lemma value_not_circular : forall show d var v, value show d var v -> ~ circular d var.
Proof.
  intros show d var v V (z & Z1 & Z2). apply (proj1 (value_acc show d)) in V.
  apply (acc_irrefl d z); auto. destruct Z1 as [->|Z1]; auto. now apply (acc_reaches d var).
Qed.
