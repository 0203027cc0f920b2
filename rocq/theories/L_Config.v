(** Lemmas about configuration templates. *)
From Verif Require Import Base M_Format M_Config S_Config L_Str L_Format L_Escape.
Local Arguments B _ : simpl never.
Local Arguments conf_loop : simpl never.

Lemma cfg_char c : is_cfg_char c = name_char c.
Proof. destruct c as [[] [] [] [] [] [] [] []]; vm_compute; reflexivity. Qed.
Lemma is_blank_spec c : is_blank c = true <-> blank c.
Proof. unfold is_blank, blank. rewrite orb_true_iff, !ceqb_eq. tauto. Qed.
Lemma blank_false c : is_blank c = false <-> ~ blank c.
Proof. rewrite <- is_blank_spec. destruct (is_blank c); split; congruence. Qed.
Lemma is_name_spec n : is_name n <-> forallb is_cfg_char n = true.
Proof.
  unfold is_name. rewrite forallb_forall, Forall_forall. split; intros H c Hc; specialize (H c Hc).
  - now rewrite cfg_char.
  - now rewrite <- cfg_char.
Qed.
Lemma blanks_spec n : Forall blank n <-> forallb is_blank n = true.
Proof. rewrite forallb_forall, Forall_forall. split; intros H c Hc; apply is_blank_spec, (H c Hc). Qed.
Lemma skipn_len {X} (p r : list X) : skipn (length p) (p ++ r) = r.
Proof. rewrite skipn_app, Nat.sub_diag, skipn_all. reflexivity. Qed.
Lemma at_eol_spec l : at_eol l = true <-> end_of_line l.
Proof.
  unfold end_of_line. destruct l as [|c r]; cbn [at_eol]; [split; auto|]. rewrite orb_true_iff, !ceqb_eq. split.
  - intros [->| ->]; [right; left|right; right]; eauto.
  - intros [H|[[x H]|[x H]]]; inversion H; auto.
Qed.
Definition noeol (c : ascii) : Prop := c <> NL /\ c <> NUL.
Lemma noeol_spec c : negb (ceqb c NL || ceqb c NUL) = true <-> noeol c.
Proof. rewrite negb_true_iff, orb_false_iff, !ceqb_neq. reflexivity. Qed.
Lemma to_eol_app x r : Forall noeol x -> end_of_line r -> to_eol (x ++ r) = r.
Proof.
  intros H Hr. unfold to_eol. induction H as [|c x Hc H IH]; cbn [app dropw].
  - apply at_eol_spec in Hr. destruct r as [|c r]; [reflexivity|]. cbn [at_eol] in Hr. cbn [dropw]. now rewrite Hr.
  - apply noeol_spec in Hc. rewrite Hc. exact IH.
Qed.
Lemma to_eol_inv l : exists x, l = x ++ to_eol l /\ Forall noeol x /\ end_of_line (to_eol l).
Proof.
  destruct (dropw_spec (fun c => negb (ceqb c NL || ceqb c NUL)) l) as (a & E & H1 & H2). exists a. split; [exact E|]. split.
  - eapply Forall_impl; [|exact H1]. intros c. apply noeol_spec.
  - apply at_eol_spec. fold (to_eol l) in H2. destruct (to_eol l) as [|c r]; [reflexivity|]. cbn [at_eol].
    specialize (H2 c r eq_refl). now apply negb_false_iff in H2.
Qed.
Lemma name_noeol n : is_name n -> Forall noeol n.
Proof. intros H. eapply Forall_impl; [|exact H]. intros c Hc. split; intros ->; vm_compute in Hc; discriminate. Qed.
Lemma blank_noeol n : Forall blank n -> Forall noeol n.
Proof. intros H. eapply Forall_impl; [|exact H]. intros c [->| ->]; split; intros X; vm_compute in X; discriminate. Qed.
Lemma eol_head r c x : end_of_line r -> r = c :: x -> c = NL \/ c = NUL.
Proof. intros [->|[[y ->]|[y ->]]] E; inversion E; auto. Qed.
Lemma skip_ws_inv l : exists ws, l = ws ++ skip_ws l /\ Forall blank ws /\ (forall c x, skip_ws l = c :: x -> ~ blank c).
Proof.
  unfold skip_ws. destruct (dropw_inv (f := is_blank) l) as (ws & E & H1 & H2). exists ws. split; [exact E|]. split; [now apply blanks_spec|].
  intros c x Hx. rewrite Hx in H2. now apply blank_false.
Qed.
Lemma skip_ws_app ws l : Forall blank ws -> (forall c x, l = c :: x -> ~ blank c) -> skip_ws (ws ++ l) = l.
Proof.
  intros H1 H2. unfold skip_ws. rewrite dropw_app by now apply blanks_spec. destruct l as [|c x]; [reflexivity|]. cbn [dropw].
  specialize (H2 c x eq_refl). apply blank_false in H2. now rewrite H2.
Qed.
Lemma skip_ws_eol x r : Forall noeol x -> end_of_line r -> exists y, skip_ws (x ++ r) = y ++ r /\ Forall noeol y.
Proof.
  intros H Hr. induction H as [|c x Hc H IH].
  - exists []. split; [|constructor]. cbn [app]. apply (skip_ws_app [] r); [constructor|]. intros c y E. destruct (eol_head _ _ _ Hr E) as [->| ->]; intros [X|X]; vm_compute in X; discriminate.
  - destruct (is_blank c) eqn:Eb.
    + destruct IH as (y & E & Hy). exists y. split; [|exact Hy]. cbn [app]. unfold skip_ws in *. cbn [dropw]. now rewrite Eb.
    + exists (c :: x). split; [|now constructor]. cbn [app]. unfold skip_ws. cbn [dropw]. now rewrite Eb.
Qed.
Lemma starts_eol p x r : starts_with p (x ++ r) = true -> Forall noeol p -> end_of_line r -> exists y, x = p ++ y.
Proof.
  intros H Hp Hr. apply starts_with_spec in H as [s E]. destruct (le_lt_dec (length p) (length x)) as [L|L].
  - symmetry in E. destruct (app_eq_len _ _ _ _ E L) as (e & E1 & _). eauto.
  - destruct (app_eq_len _ _ _ _ E) as (e & E1 & E2); [lia|]. destruct e as [|c e].
    + rewrite app_nil_r in E1. subst p. lia.
    + exfalso. subst p r. apply Forall_app in Hp as [_ Hp]. inversion Hp as [|? ? [A B'] _]; subst. destruct (eol_head _ c (e ++ s) Hr eq_refl); auto.
Qed.
Lemma c_str_cases s : (~ In NUL s /\ c_str s = s) \/ (exists a r, s = a ++ NUL :: r /\ ~ In NUL a /\ c_str s = a).
Proof.
  unfold c_str. destruct (break_at NUL s) as [a b] eqn:E. cbn [fst]. pose proof (break_at_app _ _ _ _ E) as E1. pose proof (break_at_notin _ _ _ _ E) as E2.
  pose proof (break_at_rest _ _ _ _ E) as E3. subst s. destruct E3 as [->|[r ->]].
  - left. rewrite app_nil_r. auto.
  - right. exists a, r. auto.
Qed.
Lemma define_text_spec name v t : define_text name v = Some t <-> defines name v t.
Proof.
  assert (Hc : forall d sub, d ++ B " " ++ name ++ sub = (d ++ B " ") ++ name ++ sub) by (intros; now rewrite <- app_assoc).
  destruct v as [[s|[]|z|p|]|]; cbn [define_text]; rewrite ?Hc; split; intros H; try discriminate H; try (inversion H; fail).
  - assert (E : t = (B "#define" ++ B " ") ++ name ++ B " " ++ c_str s) by congruence. subst t.
    destruct (c_str_cases s) as [[H1 H2]|(a & r & E & H1 & H2)]; rewrite H2; [now constructor|]. subst s. now constructor.
  - destruct (c_str_cases s) as [[H1 H2]|(a & r & E & H1 & H2)]; rewrite H2; inversion H; subst; try reflexivity; try tauto.
    + exfalso. apply H1. rewrite in_app_iff. simpl. auto.
    + exfalso. match goal with Hn : ~ In NUL _ |- _ => apply Hn; rewrite in_app_iff; simpl; auto end.
    + match goal with Hq : _ ++ NUL :: _ = _ ++ NUL :: _ |- _ => apply (f_equal (break_at NUL)) in Hq; rewrite !break_at_compute in Hq by eauto; injection Hq as -> -> end. reflexivity.
  - assert (E : t = (B "#define" ++ B " ") ++ name ++ []) by congruence. subst t. rewrite app_nil_r. constructor.
  - inversion H; subst. now rewrite app_nil_r.
  - assert (E : t = (B "#undef" ++ B " ") ++ name ++ []) by congruence. subst t. rewrite app_nil_r. constructor.
  - inversion H; subst. now rewrite app_nil_r.
  - assert (E : t = (B "#define" ++ B " ") ++ name ++ B " " ++ number_to_string z) by congruence. subst t. constructor.
  - inversion H; subst. reflexivity.
  - assert (E : t = (B "/* undef" ++ B " ") ++ name ++ B " " ++ B "*/") by congruence. subst t. constructor.
  - inversion H; subst. reflexivity.
Qed.
Lemma coerce_string_spec v t : coerce_string v = Some t <-> shows v t.
Proof.
  destruct v as [s|[]|z|p|]; cbn [coerce_string]; split; intros H; try discriminate H; try (inversion H; subst; reflexivity).
  all: apply (f_equal (fun o => match o with Some x => x | None => [] end)) in H; subst t; constructor.
Qed.
Lemma run_inv l bs r : span (fun x => ceqb x BSLASH) l = (bs, r) -> l = repeat BSLASH (length bs) ++ r /\ ~ begins [BSLASH] r.
Proof.
  intros H. destruct (span_spec _ _ _ _ H) as (E & H1 & H2). assert (Eb : bs = repeat BSLASH (length bs)).
  { clear -H1. induction H1 as [|c b Hc _ IH]; [reflexivity|]. apply ceqb_eq in Hc. subst c. cbn [length repeat]. now f_equal. }
  split; [now rewrite <- Eb|]. intros [x Hx]. subst r. specialize (H2 _ _ eq_refl). rewrite ceqb_refl in H2. discriminate.
Qed.
Lemma run_span n r : ~ begins [BSLASH] r -> span (fun x => ceqb x BSLASH) (repeat BSLASH n ++ r) = (repeat BSLASH n, r).
Proof.
  intros H. apply span_all.
  - apply forallb_forall. intros c Hc. apply repeat_spec in Hc. subst c. apply ceqb_refl.
  - destruct r as [|c r]; [exact I|]. apply ceqb_neq. intros ->. apply H. now exists r.
Qed.
Lemma starts_begins p l : starts_with p l = true <-> begins p l.
Proof. apply starts_with_spec. Qed.
Lemma starts_false p l : starts_with p l = false <-> ~ begins p l.
Proof. rewrite <- starts_begins. destruct (starts_with p l); split; congruence. Qed.

Section C.
Variables (cd cv : bool) (dict : bytes -> option cfg_value).
Notation syn := (mk_syntax cd cv).
Notation rel := (conf_rel cd cv dict).
Lemma open_head r : exists c x, opening cv ++ r = c :: x /\ c <> BSLASH /\ c <> "#"%char /\ is_cfg_char c = false.
Proof. destruct cv; [exists "$"%char, ("{"%char :: r)|exists "@"%char, r]; split; try reflexivity; repeat split; vm_compute; congruence. Qed.
Lemma word_head r : exists x, word cd ++ r = "#"%char :: x.
Proof. destruct cd; eexists; reflexivity. Qed.
Lemma word_not_open r : ~ begins (word cd) (opening cv ++ r).
Proof. intros [x H]. destruct (open_head r) as (c & y & E & H1 & H2 & _). destruct (word_head x) as (z & Ez). rewrite E, Ez in H. injection H as -> _. auto. Qed.
Lemma word_not_bs r : ~ begins (word cd) (BSLASH :: r).
Proof. intros [x H]. destruct (word_head x) as (z & Ez). rewrite Ez in H. vm_compute in H. discriminate H. Qed.
Lemma closing_head : closing cv = [varend syn].
Proof. destruct cv; reflexivity. Qed.
Lemma closing_not_name : is_cfg_char (varend syn) = false.
Proof. destruct cv; reflexivity. Qed.
Lemma odd_div2 j : Nat.odd j = true -> j = 2 * Nat.div2 j + 1.
Proof. intros H. rewrite (Nat.div2_odd j) at 1. rewrite H. simpl. lia. Qed.
Lemma even_div2 j : Nat.odd j = false -> j = 2 * Nat.div2 j.
Proof. intros H. rewrite (Nat.div2_odd j) at 1. rewrite H. simpl. lia. Qed.

Lemma conf_loop_eq f bol l out : conf_loop (S f) syn dict bol l out =
      match l with
      | [] => COk out
      | c :: r =>
          if bol && starts_with (word cd) l then
            let l1 := skip_ws (skipn (length (word cd)) l) in
            let '(name, l2) := span is_cfg_char l1 in
            let l3 := skip_ws l2 in
            if negb (at_eol l3) && negb cd then CErr
            else
              let l4 := if at_eol l3 then l3
                        else if starts_with (B "@" ++ name ++ B "@") l3
                             then to_eol (skip_ws (skipn (2 + length name) l3))
                             else to_eol l3 in
              if length l4 =? length l1 then CErr
              else match define_text name (dict name) with
                   | None => CErr
                   | Some t => conf_loop f syn dict false l4 (out ++ t)
                   end
          else if ceqb c BSLASH then
            let '(bs, r') := span (fun x => ceqb x BSLASH) l in
            let j := length bs in
            if starts_with (opening cv) r' then
              if Nat.odd j
              then conf_loop f syn dict false (skipn (length (opening cv)) r') (out ++ repeat BSLASH (Nat.div2 j) ++ opening cv)
              else conf_loop f syn dict false r' (out ++ repeat BSLASH (Nat.div2 j))
            else conf_loop f syn dict false r' (out ++ repeat BSLASH j)
          else if starts_with (opening cv) l then
            let l1 := skipn (length (opening cv)) l in
            let '(name, l2) := span is_cfg_char l1 in
            match l2 with
            | x :: r' =>
                if ceqb x (varend syn) then
                  match name with
                  | [] => CErr
                  | _ => match dict name with
                         | None => CErr
                         | Some v => match coerce_string v with
                                     | None => CErr
                                     | Some t => conf_loop f syn dict false r' (out ++ t)
                                     end
                         end
                  end
                else conf_loop f syn dict false l1 (out ++ opening cv)
            | [] => conf_loop f syn dict false l1 (out ++ opening cv)
            end
          else conf_loop f syn dict (ceqb c NL) r (out ++ [c])
      end.
Proof. reflexivity. Qed.

Lemma no_reference l name l2 : span is_cfg_char l = (name, l2) -> (forall x r', l2 = x :: r' -> x <> varend syn) ->
  forall n r', is_name n -> l <> n ++ closing cv ++ r'.
Proof.
  intros H Hx n r' Hn E. rewrite closing_head in E. subst l. rewrite span_all in H; [|now apply is_name_spec|exact closing_not_name].
  injection H as <- <-. eapply Hx; reflexivity.
Qed.

Lemma span_name l name l2 : span is_cfg_char l = (name, l2) -> l = name ++ l2 /\ is_name name /\ (forall c x, l2 = c :: x -> name_char c = false).
Proof.
  intros H. destruct (span_spec _ _ _ _ H) as (E & H1 & H2). split; [exact E|]. split.
  - apply is_name_spec. apply forallb_forall. now apply Forall_forall.
  - intros c x ->. rewrite <- cfg_char. exact (H2 c x eq_refl).
Qed.

Theorem conf_sound f : forall bol l out o, conf_loop f syn dict bol l out = COk o -> exists o', o = out ++ o' /\ rel bol l o'.
Proof.
  induction f as [|f IH]; intros bol l out o H; [discriminate H|]. rewrite conf_loop_eq in H. destruct l as [|c r].
  { injection H as <-. exists []. rewrite app_nil_r. split; [reflexivity|constructor]. }
  destruct (bol && starts_with (word cd) (c :: r)) eqn:Ed.
  - apply andb_true_iff in Ed as [-> Ed]. apply starts_begins in Ed as [r0 Er]. rewrite Er in H |- *. rewrite skipn_len in H.
    cbv zeta in H. destruct (skip_ws_inv r0) as (ws & E1 & Hws & Hnb). remember (skip_ws r0) as l1 eqn:El1. clear El1. subst r0.
    destruct (span is_cfg_char l1) as [name l2] eqn:Es. destruct (span_name _ _ _ Es) as (E2 & Hn & Hh).
    destruct (skip_ws_inv l2) as (ws2 & E3 & Hws2 & Hnb3). remember (skip_ws l2) as l3 eqn:El3. clear El3.
    destruct (negb (at_eol l3) && negb cd) eqn:Eg; [discriminate H|].
    assert (X : exists tr l4, l3 = tr ++ l4 /\ Forall noeol tr /\ end_of_line l4 /\ (cd = false -> tr = []) /\
        (if at_eol l3 then l3 else if starts_with (B "@" ++ name ++ B "@") l3 then to_eol (skip_ws (skipn (2 + length name) l3)) else to_eol l3) = l4).
    { destruct (at_eol l3) eqn:Ee.
      - exists [], l3. split; [reflexivity|]. split; [constructor|]. split; [now apply at_eol_spec|]. split; auto.
      - assert (Hcd : cd = true) by (destruct cd; [reflexivity|discriminate Eg]).
        destruct (starts_with (B "@" ++ name ++ B "@") l3) eqn:Ea.
        + apply starts_begins in Ea as [l3' Ea]. assert (Hl : 2 + length name = length (B "@" ++ name ++ B "@")) by (rewrite !app_length; simpl; lia).
          rewrite Hl, Ea, skipn_len. destruct (skip_ws_inv l3') as (w & Ew & Hw & _). destruct (to_eol_inv (skip_ws l3')) as (x & Ex & Hx & Hxe).
          exists ((B "@" ++ name ++ B "@") ++ w ++ x), (to_eol (skip_ws l3')). split; [|split; [|split; [exact Hxe|split; [rewrite Hcd; discriminate|reflexivity]]]].
          * rewrite <- (app_assoc (B "@" ++ name ++ B "@")), <- (app_assoc w), <- Ex, <- Ew. reflexivity.
          * repeat apply Forall_app_2 || (apply Forall_app; split); auto using name_noeol, blank_noeol; repeat constructor; vm_compute; congruence.
        + destruct (to_eol_inv l3) as (x & Ex & Hx & Hxe). exists x, (to_eol l3). split; [exact Ex|]. split; [exact Hx|]. split; [exact Hxe|]. split; [rewrite Hcd; discriminate|reflexivity]. }
    destruct X as (tr & l4 & E4 & Htr & Heol & Hcd & Ex). rewrite Ex in H. clear Ex.
    destruct (length l4 =? length l1) eqn:El; [discriminate H|]. apply Nat.eqb_neq in El.
    destruct (define_text name (dict name)) as [t|] eqn:Et; [|discriminate H]. apply define_text_spec in Et.
    apply IH in H as (o' & -> & Hr). exists (t ++ o'). split; [now rewrite <- app_assoc|].
    destruct name as [|n0 name].
    + cbn [app] in E2. subst l2. assert (ws2 = []) as ->. { destruct ws2 as [|b ws2]; [reflexivity|]. exfalso. apply (Hnb b (ws2 ++ l3)); [exact E3|]. now inversion Hws2. }
      cbn [app] in E3. rewrite <- E3 in E4. destruct tr as [|c0 tr]; [cbn [app] in E4; subst; lia|]. rewrite E4.
      cbn [app]. apply CR_nameless; auto.
      * destruct cd; [reflexivity|]. now discriminate (Hcd eq_refl).
      * eapply Hnb. rewrite E4. reflexivity.
      * eapply Hh. rewrite E4. reflexivity.
    + rewrite E2, E3, E4. rewrite (app_assoc ws2). apply CR_define; auto; try discriminate.
      * apply Forall_app. split; [now apply blank_noeol|exact Htr].
      * intros c0 x Hx. apply (Hh c0 (x ++ l4)). rewrite E3, E4, app_assoc, Hx. reflexivity.
      * intros X. rewrite (Hcd X), app_nil_r. exact Hws2.
  - destruct (ceqb c BSLASH) eqn:Eb.
    + apply ceqb_eq in Eb. subst c. destruct (span _ (BSLASH :: r)) as [bs r'] eqn:Es. destruct (run_inv _ _ _ Es) as (E & Hn). cbv zeta in H.
      assert (Hl : length bs <> 0). { intros X. rewrite X in E. cbn [repeat app] in E. apply Hn. rewrite <- E. now exists r. }
      rewrite E. destruct (starts_with (opening cv) r') eqn:Eo.
      * apply starts_begins in Eo as [r'' ->]. destruct (Nat.odd (length bs)) eqn:Eod.
        -- rewrite skipn_len in H. apply IH in H as (o' & -> & Hr). exists (repeat BSLASH (Nat.div2 (length bs)) ++ opening cv ++ o'). split; [now rewrite <- !app_assoc|].
           rewrite (odd_div2 _ Eod) at 1. now apply CR_escaped.
        -- apply IH in H as (o' & -> & Hr). exists (repeat BSLASH (Nat.div2 (length bs)) ++ o'). split; [now rewrite <- !app_assoc|].
           rewrite (even_div2 _ Eod) at 1. pose proof (even_div2 _ Eod). destruct (Nat.div2 (length bs)) as [|k]; [lia|]. now apply CR_pairs.
      * apply IH in H as (o' & -> & Hr). exists (repeat BSLASH (length bs) ++ o'). split; [now rewrite <- !app_assoc|].
        destruct (length bs) as [|n]; [congruence|]. apply CR_backslashes; auto. now apply starts_false.
    + apply ceqb_neq in Eb. destruct (starts_with (opening cv) (c :: r)) eqn:Eo.
      * apply starts_begins in Eo as [l1 El]. rewrite El in *. rewrite skipn_len in H. cbv zeta in H.
        destruct (span is_cfg_char l1) as [name l2] eqn:Es.
        assert (Lit : forall o0, (forall x r', l2 = x :: r' -> x <> varend syn) -> conf_loop f syn dict false l1 (out ++ opening cv) = COk o0 ->
                 exists o', o0 = out ++ o' /\ rel bol (opening cv ++ l1) o').
        { intros o0 Hx H0. apply IH in H0 as (o' & -> & Hr). exists (opening cv ++ o'). split; [now rewrite <- app_assoc|].
          apply CR_marker; [|exact Hr]. eapply no_reference; eassumption. }
        destruct l2 as [|x r']; [apply Lit; [discriminate|exact H]|]. destruct (ceqb x (varend syn)) eqn:Ex.
        -- apply ceqb_eq in Ex. subst x. destruct (span_name _ _ _ Es) as (E2 & Hn & _). destruct name as [|n0 name]; [discriminate H|].
           destruct (dict (n0 :: name)) as [v|] eqn:Ev; [|discriminate H]. destruct (coerce_string v) as [t|] eqn:Et; [|discriminate H].
           apply coerce_string_spec in Et. apply IH in H as (o' & -> & Hr). exists (t ++ o'). split; [now rewrite <- app_assoc|].
           rewrite E2. change (varend syn :: r') with ([varend syn] ++ r'). rewrite <- closing_head. eapply CR_variable; eauto. discriminate.
        -- apply ceqb_neq in Ex. apply Lit; [|exact H]. intros y r'' E. injection E as -> _. exact Ex.
      * apply IH in H as (o' & -> & Hr). exists (c :: o'). split; [now rewrite <- app_assoc|]. apply CR_byte; auto.
        -- intros [-> Hb]. apply starts_begins in Hb. rewrite Hb in Ed. discriminate.
        -- now apply starts_false.
Qed.

Theorem conf_complete bol l o : rel bol l o -> forall f out, length l < f -> conf_loop f syn dict bol l out = COk (out ++ o).
Proof.
  induction 1 as [bol|bol c r o H1 H2 H3 _ IH|bol n r o H1 H2 _ IH|bol k r o _ IH|bol k r o _ IH|bol name r v t o H1 H2 H3 H4 _ IH|bol r o H1 _ IH
    |ws name trail r t o Hws Hne Hn Htr Hh Hcd Heol Ht _ IH|ws c trail r t o Hcd Hws Hc Hcn Htr Heol Ht _ IH];
  intros f out Hf; (destruct f as [|f]; [inversion Hf|]); rewrite conf_loop_eq.
  - now rewrite app_nil_r.
  - assert (E : bol && starts_with (word cd) (c :: r) = false).
    { destruct bol; [|reflexivity]. apply starts_false. tauto. }
    rewrite E. apply ceqb_neq in H2. rewrite H2. apply starts_false in H3. rewrite H3. rewrite IH by (cbn [length] in Hf; lia). now rewrite <- app_assoc.
  - rewrite app_length, repeat_length in Hf. cbn [repeat app].
    assert (E : starts_with (word cd) (BSLASH :: repeat BSLASH n ++ r) = false) by (apply starts_false, word_not_bs). rewrite E, andb_false_r. change (ceqb BSLASH BSLASH) with true.
    change (BSLASH :: repeat BSLASH n ++ r) with (repeat BSLASH (S n) ++ r). rewrite run_span by assumption. cbv zeta. rewrite repeat_length. apply starts_false in H2. rewrite H2.
    rewrite IH by lia. now rewrite <- app_assoc.
  - rewrite !app_length, repeat_length in Hf. rewrite Nat.add_1_r. remember (2 * k) as n eqn:En. cbn [repeat app].
    assert (E : starts_with (word cd) (BSLASH :: repeat BSLASH n ++ opening cv ++ r) = false) by (apply starts_false, word_not_bs). rewrite E, andb_false_r. change (ceqb BSLASH BSLASH) with true.
    change (BSLASH :: repeat BSLASH n ++ opening cv ++ r) with (repeat BSLASH (S n) ++ opening cv ++ r). rewrite run_span.
    2:{ intros [x Hx]. destruct (open_head r) as (c & y & Ec & Hc & _). rewrite Ec in Hx. injection Hx as -> _. auto. }
    cbv zeta. rewrite repeat_length. assert (Eo : starts_with (opening cv) (opening cv ++ r) = true) by (apply starts_begins; now exists r). rewrite Eo, skipn_len.
    assert (Hodd : Nat.odd (S n) = true) by (rewrite En; apply Nat.odd_spec; exists k; lia). rewrite Hodd.
    assert (Hd : Nat.div2 (S n) = k) by (pose proof (odd_div2 _ Hodd); lia). rewrite Hd. rewrite IH by lia. now rewrite <- !app_assoc.
  - rewrite !app_length, repeat_length in Hf. replace (2 * S k) with (S (2 * k + 1)) in * by lia. remember (2 * k + 1) as n eqn:En. cbn [repeat app].
    assert (E : starts_with (word cd) (BSLASH :: repeat BSLASH n ++ opening cv ++ r) = false) by (apply starts_false, word_not_bs). rewrite E, andb_false_r. change (ceqb BSLASH BSLASH) with true.
    change (BSLASH :: repeat BSLASH n ++ opening cv ++ r) with (repeat BSLASH (S n) ++ opening cv ++ r). rewrite run_span.
    2:{ intros [x Hx]. destruct (open_head r) as (c & y & Ec & Hc & _). rewrite Ec in Hx. injection Hx as -> _. auto. }
    cbv zeta. rewrite repeat_length. assert (Eo : starts_with (opening cv) (opening cv ++ r) = true) by (apply starts_begins; now exists r). rewrite Eo.
    assert (Hodd : Nat.odd (S n) = false). { rewrite <- Nat.negb_even. apply negb_false_iff, Nat.even_spec. exists (S k). lia. } rewrite Hodd.
    assert (Hd : Nat.div2 (S n) = S k) by (pose proof (even_div2 _ Hodd); lia). rewrite Hd. rewrite IH by (rewrite app_length; lia). now rewrite <- !app_assoc.
  - destruct (open_head (name ++ closing cv ++ r)) as (c & y & Ec & Hc & _). rewrite !app_length in Hf. rewrite Ec. rewrite <- Ec.
    assert (E : starts_with (word cd) (opening cv ++ name ++ closing cv ++ r) = false) by (apply starts_false, word_not_open). rewrite E, andb_false_r. apply ceqb_neq in Hc. rewrite Hc.
    assert (Eo : starts_with (opening cv) (opening cv ++ name ++ closing cv ++ r) = true) by (apply starts_begins; eexists; reflexivity). rewrite Eo, skipn_len. cbv zeta.
    rewrite closing_head. change ([varend syn] ++ r) with (varend syn :: r). rewrite span_all; [|now apply is_name_spec|exact closing_not_name]. rewrite ceqb_refl.
    destruct name as [|n0 name]; [congruence|]. rewrite H3. apply coerce_string_spec in H4. rewrite H4. cbn [length] in Hf. rewrite IH by lia. now rewrite <- app_assoc.
  - destruct (open_head r) as (c & y & Ec & Hc & _). rewrite !app_length in Hf. rewrite Ec. rewrite <- Ec.
    assert (E : starts_with (word cd) (opening cv ++ r) = false) by (apply starts_false, word_not_open). rewrite E, andb_false_r. apply ceqb_neq in Hc. rewrite Hc.
    assert (Eo : starts_with (opening cv) (opening cv ++ r) = true) by (apply starts_begins; eexists; reflexivity). rewrite Eo, skipn_len. cbv zeta.
    assert (Hlen : 0 < length (opening cv)) by (destruct cv; simpl; lia).
    destruct (span is_cfg_char r) as [name l2] eqn:Es. assert (G : conf_loop f syn dict false r (out ++ opening cv) = COk (out ++ opening cv ++ o)) by (rewrite IH by lia; now rewrite <- app_assoc).
    destruct l2 as [|x r']; [exact G|]. destruct (ceqb x (varend syn)) eqn:Ex; [|exact G]. exfalso. apply ceqb_eq in Ex. subst x.
    destruct (span_name _ _ _ Es) as (E2 & Hn & _). apply (H1 name r' Hn). rewrite closing_head. exact E2.
  - destruct (word_head (ws ++ name ++ trail ++ r)) as (y & Ey). rewrite !app_length in Hf. rewrite Ey. rewrite <- Ey.
    assert (E : starts_with (word cd) (word cd ++ ws ++ name ++ trail ++ r) = true) by (apply starts_begins; eexists; reflexivity). rewrite E, skipn_len. cbn [andb]. cbv zeta.
    destruct name as [|n0 name]; [congruence|]. rewrite skip_ws_app; [|assumption|].
    2:{ intros c x Hx. cbn [app] in Hx. injection Hx as <- _. inversion Hn; subst. intros [->| ->]; discriminate. }
    rewrite span_all; [|now apply is_name_spec|].
    2:{ destruct (trail ++ r) as [|c x] eqn:Etr; [exact I|]. rewrite cfg_char. destruct trail as [|c' tr].
        - cbn [app] in Etr. destruct (eol_head _ _ _ Heol Etr) as [->| ->]; vm_compute; reflexivity.
        - cbn [app] in Etr. injection Etr as -> _. eapply Hh. reflexivity. }
    destruct (skip_ws_inv trail) as (w & Ew & Hw & Hnb). remember (skip_ws trail) as t0 eqn:Et0. clear Et0.
    assert (Esk : skip_ws (trail ++ r) = t0 ++ r).
    { rewrite Ew at 1. rewrite <- app_assoc. apply skip_ws_app; [assumption|]. intros c x Hx. destruct t0 as [|c' t0]; [|cbn [app] in Hx; injection Hx as -> _; eapply Hnb; reflexivity].
      cbn [app] in Hx. destruct (eol_head _ _ _ Heol Hx) as [->| ->]; intros [X|X]; vm_compute in X; discriminate. }
    rewrite Esk. assert (Ht0 : Forall noeol t0) by (rewrite Ew in Htr; now apply Forall_app in Htr).
    apply define_text_spec in Ht.
    assert (Hl4 : forall l4, l4 = r -> (if length l4 =? length ((n0 :: name) ++ trail ++ r) then CErr else
                 match define_text (n0 :: name) (dict (n0 :: name)) with None => CErr | Some t1 => conf_loop f syn dict false l4 (out ++ t1) end) = COk (out ++ t ++ o)).
    { intros l4 ->. assert (El : length r =? length ((n0 :: name) ++ trail ++ r) = false) by (apply Nat.eqb_neq; rewrite !app_length; cbn [length]; lia).
      cbn [length] in Hf. rewrite El, Ht, IH by lia. now rewrite <- app_assoc. }
    destruct t0 as [|c0 t0].
    + cbn [app]. assert (Ee : at_eol r = true) by now apply at_eol_spec. rewrite Ee. cbn [negb andb]. apply Hl4. reflexivity.
    + assert (Ee : at_eol ((c0 :: t0) ++ r) = false). { inversion Ht0 as [|? ? Hc0 _]; subst. apply noeol_spec in Hc0. cbn [app at_eol]. now apply negb_true_iff in Hc0. }
      rewrite Ee. assert (Hcdt : cd = true). { destruct cd; [reflexivity|]. exfalso. specialize (Hcd eq_refl). rewrite Ew in Hcd. apply Forall_app in Hcd as [_ Hcd]. inversion Hcd; subst. eapply Hnb; [reflexivity|assumption]. }
      assert (Hncd : negb cd = false) by now rewrite Hcdt. rewrite Hncd, andb_false_r. apply Hl4.
      destruct (starts_with (B "@" ++ (n0 :: name) ++ B "@") ((c0 :: t0) ++ r)) eqn:Ea; [|now apply to_eol_app].
      apply starts_eol in Ea as [y' Ey']; [|repeat (apply Forall_app; split); auto using name_noeol; repeat constructor; vm_compute; congruence|assumption].
      rewrite Ey' in Ht0 |- *. rewrite <- app_assoc. replace (2 + length (n0 :: name)) with (length (B "@" ++ (n0 :: name) ++ B "@")) by (rewrite !app_length; simpl; lia). rewrite skipn_len.
      apply Forall_app in Ht0 as [_ Ht0]. destruct (skip_ws_eol y' r Ht0 Heol) as (z & Ez & Hz). rewrite Ez. now apply to_eol_app.
  - destruct (word_head (ws ++ c :: trail ++ r)) as (y & Ey). rewrite !app_length in Hf. cbn [length] in Hf. rewrite app_length in Hf. rewrite Ey. rewrite <- Ey.
    assert (E : starts_with (word cd) (word cd ++ ws ++ c :: trail ++ r) = true) by (apply starts_begins; eexists; reflexivity). rewrite E, skipn_len. cbn [andb]. cbv zeta.
    rewrite skip_ws_app; [|assumption|intros c' x Hx; injection Hx as <- _; exact Hc]. cbn [span]. rewrite cfg_char, Hcn.
    change (c :: trail ++ r) with ([] ++ c :: trail ++ r) at 1. change (skip_ws ([] ++ c :: trail ++ r)) with (skip_ws (c :: trail ++ r)).
    assert (Esk : skip_ws (c :: trail ++ r) = c :: trail ++ r) by (apply (skip_ws_app []); [constructor|intros c' x Hx; injection Hx as <- _; exact Hc]).
    rewrite !Esk. inversion Htr as [|? ? Hc0 Htr']; subst. assert (Ee : at_eol (c :: trail ++ r) = false) by (cbn [at_eol]; apply noeol_spec in Hc0; now apply negb_true_iff in Hc0).
    rewrite Ee. cbn [negb andb]. apply define_text_spec in Ht.
    assert (G : (if starts_with (B "@" ++ [] ++ B "@") (c :: trail ++ r) then to_eol (skip_ws (skipn (2 + length (@nil ascii)) (c :: trail ++ r))) else to_eol (c :: trail ++ r)) = r).
    { destruct (starts_with _ (c :: trail ++ r)) eqn:Ea; [|now apply (to_eol_app (c :: trail))].
      apply (starts_eol _ (c :: trail)) in Ea as [y' Ey']; [|repeat constructor; vm_compute; congruence|assumption].
      change (c :: trail ++ r) with ((c :: trail) ++ r). rewrite Ey' in Htr |- *. rewrite <- app_assoc. change (2 + length (@nil ascii)) with (length (B "@" ++ [] ++ B "@")). rewrite skipn_len.
      apply Forall_app in Htr as [_ Ht0]. destruct (skip_ws_eol y' r Ht0 Heol) as (z & Ez & Hz). rewrite Ez. now apply to_eol_app. }
    rewrite G. assert (El : length r =? length (c :: trail ++ r) = false) by (apply Nat.eqb_neq; cbn [length]; rewrite app_length; lia). rewrite El, Ht, IH by lia. now rewrite <- app_assoc.
Qed.

Lemma word_noeol : Forall noeol (word cd).
Proof. destruct cd; repeat constructor; vm_compute; congruence. Qed.
Lemma open_noeol : Forall noeol (opening cv).
Proof. destruct cv; repeat constructor; vm_compute; congruence. Qed.
Lemma nl_eol l : end_of_line (NL :: l).
Proof. right. left. now exists l. Qed.
Lemma begins_cut p x l : Forall noeol p -> begins p (x ++ NL :: l) -> begins p x.
Proof. intros Hp H. apply starts_begins in H. exact (starts_eol _ _ _ H Hp (nl_eol l)). Qed.

Lemma rel_cat bol l1 o1 l2 o2 : rel bol l1 o1 -> rel true l2 o2 -> rel bol (l1 ++ NL :: l2) (o1 ++ NL :: o2).
Proof.
  intros H H0. induction H; rewrite <- ?app_assoc; cbn [app].
  - apply CR_byte; try exact H0.
    + intros [_ H]. apply (begins_cut _ [] l2 word_noeol) in H as [x H]. destruct (word_head x) as (y & Ey). rewrite Ey in H. discriminate.
    + vm_compute. congruence.
    + intros H. apply (begins_cut _ [] l2 open_noeol) in H as [x H]. destruct (open_head x) as (c & y & Ey & _). rewrite Ey in H. discriminate.
  - apply CR_byte; auto.
    + intros [E Hb]. apply H. split; [exact E|]. exact (begins_cut _ (c :: r) l2 word_noeol Hb).
    + intros Hb. apply H2. exact (begins_cut _ (c :: r) l2 open_noeol Hb).
  - change (BSLASH :: repeat BSLASH n ++ r ++ NL :: l2) with (repeat BSLASH (S n) ++ r ++ NL :: l2). change (BSLASH :: repeat BSLASH n ++ o ++ NL :: o2) with (repeat BSLASH (S n) ++ o ++ NL :: o2).
    apply CR_backslashes; auto.
    + intros Hb. apply H. apply (begins_cut _ r l2); [|exact Hb]. repeat constructor; vm_compute; congruence.
    + intros Hb. apply H1. exact (begins_cut _ r l2 open_noeol Hb).
  - now apply CR_escaped.
  - apply CR_pairs. now rewrite app_assoc.
  - eapply CR_variable; eauto.
  - apply CR_marker; [|exact IHconf_rel]. intros name r' Hn E.
    assert (Hb : begins (name ++ closing cv) (r ++ NL :: l2)) by (exists r'; rewrite E; now rewrite <- app_assoc).
    apply begins_cut in Hb as [x Hx].
    + apply (H name x Hn). rewrite Hx. now rewrite <- app_assoc.
    + apply Forall_app. split; [now apply name_noeol|]. destruct cv; repeat constructor; vm_compute; congruence.
  - apply CR_define; auto. destruct H6 as [->|[[x ->]|[x ->]]]; cbn [app]; [apply nl_eol|apply nl_eol|right; right; eauto].
  - rewrite <- (app_assoc trail). apply CR_nameless; auto. destruct H5 as [->|[[x ->]|[x ->]]]; cbn [app]; [apply nl_eol|apply nl_eol|right; right; eauto].
Qed.

Lemma plain_rel n : forall bol t, length t <= n -> ~ occurs (opening cv) t -> (bol = true -> ~ begins (word cd) t) -> (forall a b, t <> a ++ NL :: word cd ++ b) -> rel bol t t.
Proof.
  induction n as [|n IH]; intros bol t Hn Ho Hb Hl.
  { destruct t; [constructor|simpl in Hn; lia]. }
  destruct t as [|c r]; [constructor|].
  assert (Ho' : forall p x, p ++ x = c :: r -> ~ occurs (opening cv) x). { intros p x E (a & b & Ex). apply Ho. exists (p ++ a), b. rewrite <- E, Ex. now rewrite <- app_assoc. }
  assert (Hl' : forall p x, p ++ x = c :: r -> forall a b, x <> a ++ NL :: word cd ++ b). { intros p x E a b Ex. apply (Hl (p ++ a) b). rewrite <- E, Ex. now rewrite <- app_assoc. }
  destruct (ceqb c BSLASH) eqn:E.
  - apply ceqb_eq in E. subst c. destruct (span (fun x => ceqb x BSLASH) (BSLASH :: r)) as [bs r'] eqn:Es. destruct (run_inv _ _ _ Es) as (E & Hr).
    assert (Hlen : length bs <> 0). { intros X. rewrite X in E. cbn [repeat app] in E. apply Hr. rewrite <- E. now exists r. }
    rewrite E in *. destruct (length bs) as [|k]; [congruence|]. rewrite app_length, repeat_length in Hn. apply CR_backslashes; auto.
    + intros [x ->]. eapply (Ho' _ (opening cv ++ x)); [reflexivity|]. exists [], x. reflexivity.
    + apply IH; [lia| |discriminate|]; eauto.
  - apply ceqb_neq in E. apply CR_byte; auto.
    + intros [-> X]. exact (Hb eq_refl X).
    + intros [x Hx]. apply Ho. exists [], x. exact Hx.
    + cbn [length] in Hn. apply IH; [lia|apply (Ho' [c] r eq_refl)| |apply (Hl' [c] r eq_refl)].
      intros En [x Hx]. apply ceqb_eq in En. subst c. apply (Hl [] x). now rewrite Hx.
Qed.

Lemma conf_total f : forall bol l out, length l < f -> conf_loop f syn dict bol l out <> CNoFuel.
Proof.
  induction f as [|f IH]; intros bol l out Hl; [lia|]. rewrite conf_loop_eq. destruct l as [|c r]; [discriminate|].
  destruct (bol && starts_with (word cd) (c :: r)) eqn:Ed.
  - apply andb_true_iff in Ed as [_ Ed]. apply starts_begins in Ed as [r0 Er]. rewrite Er in *. rewrite skipn_len. rewrite app_length in Hl. cbv zeta.
    assert (Hw : 0 < length (word cd)) by (destruct cd; simpl; lia).
    destruct (skip_ws_inv r0) as (ws & E1 & _). destruct (span is_cfg_char (skip_ws r0)) as [name l2] eqn:Es. destruct (span_name _ _ _ Es) as (E2 & _).
    destruct (skip_ws_inv l2) as (ws2 & E3 & _). destruct (negb (at_eol (skip_ws l2)) && negb cd); [discriminate|].
    match goal with |- context [if length ?X =? _ then _ else _] => remember X as l4 eqn:El4 end.
    assert (L : length l4 <= length (skip_ws l2)).
    { subst l4. destruct (at_eol (skip_ws l2)); [lia|]. destruct (starts_with _ _).
      - unfold to_eol. eapply Nat.le_trans; [apply dropw_length|]. unfold skip_ws. eapply Nat.le_trans; [apply dropw_length|]. rewrite skipn_length. lia.
      - apply dropw_length. }
    destruct (length l4 =? _); [discriminate|]. destruct (define_text name (dict name)); [|discriminate]. apply IH.
    pose proof (dropw_length is_blank r0). pose proof (dropw_length is_blank l2). fold (skip_ws r0) in *. fold (skip_ws l2) in *.
    apply (f_equal (@length ascii)) in E2. rewrite app_length in E2. lia.
  - destruct (ceqb c BSLASH) eqn:Eb.
    + apply ceqb_eq in Eb. subst c. destruct (span _ (BSLASH :: r)) as [bs r'] eqn:Es. destruct (run_inv _ _ _ Es) as (E & Hn). cbv zeta.
      assert (Hlen : length bs <> 0). { intros X. rewrite X in E. cbn [repeat app] in E. apply Hn. rewrite <- E. now exists r. }
      apply (f_equal (@length ascii)) in E. rewrite app_length, repeat_length in E.
      destruct (starts_with (opening cv) r'); [destruct (Nat.odd (length bs))|]; apply IH; rewrite ?skipn_length; lia.
    + destruct (starts_with (opening cv) (c :: r)) eqn:Eo.
      * apply starts_begins in Eo as [l1 El]. rewrite El in *. rewrite skipn_len. cbv zeta. rewrite app_length in Hl. assert (Hw : 0 < length (opening cv)) by (destruct cv; simpl; lia).
        destruct (span is_cfg_char l1) as [name l2] eqn:Es. destruct (span_name _ _ _ Es) as (E2 & _). apply (f_equal (@length ascii)) in E2. rewrite app_length in E2.
        destruct l2 as [|x r']; [apply IH; lia|]. destruct (ceqb x (varend syn)); [|apply IH; lia]. destruct name as [|n0 name]; [discriminate|].
        destruct (dict (n0 :: name)) as [v|]; [|discriminate]. destruct (coerce_string v); [|discriminate]. apply IH. cbn [length] in E2. lia.
      * apply IH. cbn [length] in Hl. lia.
Qed.

Theorem substitute_spec t o : substitute_config syn dict t = COk o <-> rel true t o.
Proof.
  unfold substitute_config. split; intros H.
  - apply conf_sound in H as (o' & -> & H). exact H.
  - now rewrite (conf_complete _ _ _ H) by lia.
Qed.
End C.

(** quoting *)
Lemma quote_body_plain s : ~ In DQUOTE s -> quote_body s = s.
Proof.
  induction s as [|c s IH]; [reflexivity|]. cbn [In quote_body]. intros H. destruct (ceqb_spec c DQUOTE) as [->|E]; [tauto|]. cbn [app]. rewrite IH by tauto. reflexivity.
Qed.
Lemma c_str_id s : ~ In NUL s -> c_str s = s.
Proof. intros H. destruct (c_str_cases s) as [[_ E]|(a & r & E & _ & _)]; [exact E|]. exfalso. apply H. rewrite E, in_app_iff. simpl. auto. Qed.
Lemma c_body_quote s : (forall c, In c s -> c <> NL /\ c <> BSLASH) -> c_body (quote_body s ++ [DQUOTE]) = Some s.
Proof.
  induction s as [|c s IH]; intros H; [vm_compute; reflexivity|]. cbn [quote_body]. rewrite <- app_assoc. destruct (H c (or_introl eq_refl)) as [H1 H2].
  assert (IH' : c_body (quote_body s ++ [DQUOTE]) = Some s) by (apply IH; intros x Hx; apply H; now right).
  destruct (ceqb_spec c DQUOTE) as [->|E].
  - cbn [app c_body]. change (ceqb BSLASH DQUOTE) with false. change (ceqb BSLASH NL) with false. change (ceqb BSLASH BSLASH) with true.
    change (ceqb DQUOTE BSLASH || ceqb DQUOTE DQUOTE || ceqb DQUOTE QUOTE) with true. cbn [app] in IH'. rewrite IH'. reflexivity.
  - cbn [app c_body]. apply ceqb_neq in E. rewrite E. apply ceqb_neq in H1. rewrite H1. apply ceqb_neq in H2. rewrite H2. now rewrite IH'.
Qed.
Lemma unquote_body b : ~ In NUL b -> get_unquoted (DQUOTE :: b ++ [DQUOTE]) = b.
Proof.
  intros H. unfold get_unquoted. cbv zeta. rewrite c_str_id. 2:{ cbn [In]. rewrite in_app_iff. cbn [In]. intuition; vm_compute in *; congruence. }
  cbn [length]. rewrite app_length. cbn [length]. replace (2 <=? S (length b + 1)) with true by (symmetry; apply Nat.leb_le; lia).
  cbn [nth]. change (ceqb DQUOTE DQUOTE) with true. replace (S (length b + 1) - 1) with (S (length b)) by lia. cbn [nth].
  rewrite app_nth2 by lia. rewrite Nat.sub_diag. cbn [nth]. change (ceqb DQUOTE DQUOTE) with true. cbn [andb skipn].
  replace (S (length b + 1) - 2) with (length b) by lia. rewrite firstn_app, firstn_all, Nat.sub_diag. cbn [firstn]. apply app_nil_r.
Qed.
Lemma quote_body_nonul s : ~ In NUL s -> ~ In NUL (quote_body s).
Proof.
  induction s as [|c s IH]; [auto|]. cbn [In quote_body]. intros H. rewrite in_app_iff. intros [X|X]; [|now apply IH; auto].
  destruct (ceqb c DQUOTE); cbn [In] in X; [|tauto]. destruct X as [X|[X|X]]; [vm_compute in X; discriminate|tauto|tauto].
Qed.
