From Coq Require Import ZArith Lia.
From Verif Require Import Base M_Format S_Format L_Format M_Str S_Str L_Str M_Feature M_Options S_Options.
Local Arguments B _ : simpl never.

(** ** equality of values *)
Lemma value_eqb_eq : forall a b, value_eqb a b = true -> a = b.
Proof.
  fix IH 1. intros a b. destruct a as [s|x|n|f|l| |n], b as [t|y|m|g|r| |m]; cbn [value_eqb]; try discriminate; intros H.
  - now destruct (beqb_spec s t) as [->|].
  - now apply Bool.eqb_prop in H as ->.
  - now apply Z.eqb_eq in H as ->.
  - f_equal. destruct f, g; try discriminate; reflexivity.
  - f_equal. revert r H. induction l as [|x l IHl]; intros [|y r] H; try discriminate; [reflexivity|].
    apply andb_prop in H as [H1 H2]. f_equal; [now apply IH|now apply IHl].
  - reflexivity.
  - now apply Nat.eqb_eq in H as ->.
Qed.
Lemma value_eqb_refl : forall a, value_eqb a a = true.
Proof.
  fix IH 1. intros a. destruct a as [s|x|n|f|l| |n]; cbn [value_eqb].
  - destruct (beqb_spec s s); congruence.
  - apply Bool.eqb_reflx.
  - apply Z.eqb_refl.
  - now destruct f.
  - induction l as [|x l IHl]; [reflexivity|]. rewrite IH. exact IHl.
  - reflexivity.
  - apply Nat.eqb_refl.
Qed.
Lemma array_in_In l v : array_in l v = true -> In v l.
Proof.
  unfold array_in. intros H. apply existsb_exists in H as (x & I & E). apply value_eqb_eq in E as ->. assumption.
Qed.

(** ** strings *)
Lemma parse_loop_val s : forall sub key cur, parse_loop s false sub key cur = Some (sub, match key with Some k => k | None => [] end, cur ++ s).
Proof.
  induction s as [|c s IH]; intros sub key cur; cbn [parse_loop]; [now rewrite app_nil_r|].
  rewrite IH, <- app_assoc. reflexivity.
Qed.
Lemma colon_first : forall cur s k v, ~ In "="%char cur -> cur ++ ":"%char :: s = k ++ "="%char :: v -> In ":"%char k.
Proof.
  induction cur as [|x cur IH]; intros s [|y k] v H E; cbn in E; try discriminate.
  - injection E as <- _. now left.
  - injection E as -> _. exfalso. apply H. now left.
  - injection E as -> E. right. apply (IH s k v); [cbn in H; tauto|assumption].
Qed.
(** the rest of a string while the key is read *)
Lemma parse_loop_key s : forall sub cur, ~ In "="%char cur -> ~ In ":"%char cur -> forall sub' k v, k <> [] ->
  parse_loop s true sub None cur = Some (sub', k, v) <->
  (sub' = sub /\ cur ++ s = k ++ B "=" ++ v /\ ~ In "="%char k /\ ~ In ":"%char k)
  \/ (sub = None /\ exists n, sub' = Some n /\ cur ++ s = n ++ B ":" ++ k ++ B "=" ++ v /\ ~ In "="%char k /\ ~ In ":"%char k /\ ~ In "="%char n /\ ~ In ":"%char n).
Proof.
  change (B "=") with ["="%char]. change (B ":") with [":"%char].
  assert (U : forall (x : ascii) a b c d, ~ In x a -> ~ In x c -> a ++ x :: b = c ++ x :: d -> a = c /\ b = d).
  { intros x a. induction a as [|y a IH]; intros b [|z c] d Ha Hc E; cbn in *.
    - split; congruence.
    - injection E as -> E. tauto.
    - injection E as -> E. tauto.
    - injection E as -> E. destruct (IH b c d) as [-> ->]; tauto. }
  induction s as [|c s IH]; intros sub cur E1 E2 sub' k v NK; cbn [parse_loop].
  - rewrite app_nil_r. split.
    + intros [= <- <- <-]. contradiction.
    + intros [(-> & -> & _)|(_ & n & _ & -> & _)]; exfalso; apply E1; [|rewrite !in_app_iff; cbn; tauto]. rewrite in_app_iff. cbn. tauto.
  - destruct (ceqb_spec c ":"%char) as [->|N1].
    + destruct sub as [s0|].
      * split; [discriminate|]. intros [(-> & E & K1 & K2)|(? & _)]; [|discriminate]. exfalso.
        (* ':' comes before '=' *)
        assert (In ":"%char k); [|contradiction].
        exact (colon_first _ _ _ _ E1 E).
      * (* the part so far was the name of a subproject *)
        assert (X : parse_loop s true (Some cur) None [] = Some (sub', k, v) <-> sub' = Some cur /\ s = k ++ ["="%char] ++ v /\ ~ In "="%char k /\ ~ In ":"%char k).
        { rewrite IH by (first [assumption|intros []]). cbn [app]. split; [intros [H|(? & _)]; [tauto|discriminate]|tauto]. }
        rewrite X. split.
        -- intros (-> & -> & K1 & K2). right. split; [reflexivity|]. exists cur. cbn [app]. tauto.
        -- intros [(-> & E & K1 & K2)|(_ & n & -> & E & K1 & K2 & K3 & K4)].
           ++ exfalso. assert (In ":"%char k); [|contradiction].
              exact (colon_first _ _ _ _ E1 E).
           ++ cbn [app] in E. apply U in E as [-> ->]; tauto.
    + destruct (ceqb_spec c "="%char) as [->|N2].
      * rewrite parse_loop_val. cbn [app]. split.
        -- intros [= <- <- <-]. left. tauto.
        -- intros [(-> & E & K1 & K2)|(-> & n & -> & E & K1 & K2 & K3 & K4)].
           ++ cbn [app] in E. apply U in E as [-> ->]; tauto.
           ++ exfalso. replace (n ++ ":"%char :: k ++ "="%char :: v) with ((n ++ ":"%char :: k) ++ "="%char :: v) in E by now rewrite <- app_assoc.
              apply U in E as [-> _]; [|assumption|rewrite in_app_iff; cbn; intros [?|[[=]|?]]; contradiction].
              apply E2. rewrite in_app_iff. cbn. tauto.
      * rewrite IH; [|rewrite in_app_iff; cbn; intros [?|[?|[]]]; [contradiction|congruence]..|assumption].
        rewrite <- app_assoc. cbn [app]. reflexivity.
Qed.
Lemma parse_form s sub k v : parse_config_string s = Some (sub, k, v) <-> config_form s sub k v.
Proof.
  unfold parse_config_string, config_form, plain. destruct (mem_char NUL s) eqn:M.
  - split; [discriminate|]. intros (H & _). apply mem_char_In in M. contradiction.
  - assert (NN : ~ In NUL s) by now apply mem_char_not_In.
    destruct (parse_loop s true None None []) as [[[sub' k'] v']|] eqn:E.
    + destruct k' as [|c k'].
      * cbn. split; [discriminate|]. intros (_ & (NK & K1 & K2) & F). exfalso.
        assert (parse_loop s true None None [] = Some (sub, k, v)) as E'; [|congruence].
        apply parse_loop_key; [intros []..|assumption|]. cbn [app]. destruct sub as [n|]; [right|left; tauto].
        split; [reflexivity|]. exists n. tauto.
      * cbn [length Nat.eqb]. apply parse_loop_key in E; [|intros []..|discriminate]. cbn [app] in E.
        split.
        -- intros X. assert (sub = sub' /\ k = c :: k' /\ v = v' /\ sub' <> Some []) as (-> & -> & -> & NS) by (destruct sub' as [[|]|]; inversion X; repeat split; discriminate).
           split; [assumption|]. destruct E as [(-> & E & K1 & K2)|(_ & n & -> & E & K1 & K2 & K3 & K4)].
           ++ repeat split; [discriminate|assumption..].
           ++ repeat split; try assumption; [discriminate|congruence].
        -- intros (_ & (NK & K1 & K2) & F).
           assert (parse_loop s true None None [] = Some (sub, k, v)) as E1.
           { apply parse_loop_key; [intros []..|assumption|]. cbn [app]. destruct sub as [n|]; [right|left; tauto]. split; [reflexivity|]. exists n. tauto. }
           assert (parse_loop s true None None [] = Some (sub', c :: k', v')) as E2.
           { apply parse_loop_key; [intros []..|discriminate|]. cbn [app]. tauto. }
           rewrite E1 in E2. injection E2 as -> -> ->. destruct sub' as [[|]|]; [|reflexivity..]. exfalso. now apply (proj1 (proj1 F)).
    + split; [discriminate|]. intros (_ & (NK & K1 & K2) & F). exfalso.
      assert (parse_loop s true None None [] = Some (sub, k, v)) as E'; [|congruence].
      apply parse_loop_key; [intros []..|assumption|]. cbn [app]. destruct sub as [n|]; [right|left; tauto].
      split; [reflexivity|]. exists n. tauto.
Qed.

(** ** declarations and values *)
Definition same (o o' : opt) : Prop :=
  name o' = name o /\ type o' = type o /\ choices o' = choices o /\ min o' = min o /\ max o' = max o /\ depr o' = depr o /\ yield o' = yield o.
Lemma same_refl o : same o o. Proof. repeat split. Qed.
Lemma same_trans a b c : same a b -> same b c -> same a c.
Proof. intros (?&?&?&?&?&?&?) (?&?&?&?&?&?&?). repeat split; congruence. Qed.
Lemma same_src o s : same o (with_src s o). Proof. repeat split. Qed.
Lemma same_val o v : same o (with_val v o). Proof. repeat split. Qed.
Lemma check_same o o' v : same o o' -> check o' v = check o v.
Proof. intros (?&Ht&Hc&Hm&HM&?&?). unfold check. now rewrite Ht, Hc, Hm, HM. Qed.

Lemma typecheck_inv t v v' : typecheck_opt t v = Some v' -> v <> VDisabler ->
  match t with
  | OpString | OpCombo => exists s, v' = VStr s /\ v = VStr s
  | OpBoolean => exists b, v' = VBool b /\ v = VBool b
  | OpInteger => exists n, v' = VNum n /\ v = VNum n
  | OpArray => exists l, v' = VArr l /\ v = VArr l
  | OpFeature => exists f, v' = VFeature f
  end.
Proof.
  intros E N. destruct t, v; cbn in E; try discriminate; try contradiction; try (injection E as <-; eauto; fail).
  destruct (coerce_feature s); [|discriminate]. injection E as <-. eauto.
Qed.
Lemma check_conforms o v v' : v <> VDisabler -> check o v = COk v' -> forall o', same o o' -> conforms (with_val v' o').
Proof.
  intros N E o' (_&Ht&Hc&Hm&HM&_&_). unfold check in E. destruct (typecheck_opt (type o) v) as [x|] eqn:T; [|discriminate].
  pose proof (typecheck_inv _ _ _ T N) as I. unfold conforms. cbn [type val choices max min with_val]. rewrite Ht, Hc, Hm, HM.
  destruct (type o).
  - destruct I as (s & -> & _). injection E as <-. eauto.
  - destruct I as (s & -> & _). injection E as <-. eauto.
  - destruct I as (s & -> & _). destruct (choices o) as [l|]; [|discriminate]. destruct (array_in l (VStr s)) eqn:A; [|discriminate].
    injection E as <-. apply array_in_In in A. eauto.
  - destruct I as (n & -> & _).
    destruct (match max o with Some m => (m <? n)%Z | None => false end) eqn:A; [discriminate|].
    destruct (match min o with Some m => (n <? m)%Z | None => false end) eqn:B; [discriminate|]. cbn in E. injection E as <-.
    exists n. split; [reflexivity|]. split; intros m X; [rewrite X in A; apply Z.ltb_ge in A|rewrite X in B; apply Z.ltb_ge in B]; assumption.
  - destruct I as (l & -> & _). destruct (choices o) as [c|].
    + destruct (forallb (array_in c) l) eqn:A; [|discriminate]. injection E as <-. exists l. split; [reflexivity|].
      intros c' [= <-] w Hw. rewrite forallb_forall in A. now apply array_in_In, A.
    + injection E as <-. exists l. split; [reflexivity|]. discriminate.
  - destruct I as (f & ->). injection E as <-. eauto.
Qed.

(** ** the heap *)
Lemma change_heap id f w : heap (change id f w) = match nth_error (heap w) id with Some o => upd id (f o) (heap w) | None => heap w end.
Proof. unfold change. destruct (nth_error (heap w) id); reflexivity. Qed.
Lemma change_glob id f w : glob (change id f w) = glob w.
Proof. unfold change. destruct (nth_error (heap w) id); reflexivity. Qed.
Lemma change_projects id f w : projects (change id f w) = projects w.
Proof. unfold change. destruct (nth_error (heap w) id); reflexivity. Qed.
Lemma change_overrides id f w : overrides (change id f w) = overrides w.
Proof. unfold change. destruct (nth_error (heap w) id); reflexivity. Qed.
Lemma change_same id f w o : nth_error (heap w) id = Some o -> nth_error (heap (change id f w)) id = Some (f o).
Proof.
  intros E. rewrite change_heap, E. apply nth_error_upd_same. apply nth_error_Some. congruence.
Qed.
Lemma change_other id j f w : id <> j -> nth_error (heap (change id f w)) j = nth_error (heap w) j.
Proof.
  intros N. rewrite change_heap. destruct (nth_error (heap w) id); [|reflexivity]. now apply nth_error_upd_other.
Qed.

Definition frame (w w' : ws) : Prop := glob w' = glob w /\ projects w' = projects w
  /\ forall j, match nth_error (heap w) j, nth_error (heap w') j with
               | Some o, Some o' => same o o'
               | None, None => True
               | _, _ => False
               end.
Lemma frame_refl w : frame w w.
Proof. split; [reflexivity|]. split; [reflexivity|]. intros j. destruct (nth_error (heap w) j); [apply same_refl|exact I]. Qed.
Lemma frame_trans a b c : frame a b -> frame b c -> frame a c.
Proof.
  intros (G & P & H) (G' & P' & H'). split; [congruence|]. split; [congruence|]. intros j. specialize (H j). specialize (H' j).
  destruct (nth_error (heap a) j), (nth_error (heap b) j), (nth_error (heap c) j); try tauto. now apply same_trans with o0.
Qed.
Lemma frame_change id f w : (forall o, same o (f o)) -> frame w (change id f w).
Proof.
  intros Hf. split; [apply change_glob|]. split; [apply change_projects|]. intros j. destruct (Nat.eq_dec id j) as [->|N].
  - destruct (nth_error (heap w) j) as [o|] eqn:E.
    + rewrite (change_same _ _ _ _ E). apply Hf.
    + rewrite change_heap, E, E. exact I.
  - rewrite change_other by assumption. destruct (nth_error (heap w) j); [apply same_refl|exact I].
Qed.
Lemma frame_overrides l w : frame w (with_overrides l w).
Proof. split; [reflexivity|]. split; [reflexivity|]. intros j. cbn. destruct (nth_error (heap w) j); [apply same_refl|exact I]. Qed.
Lemma frame_get w w' p n : frame w w' -> get_option w' p n = get_option w p n.
Proof. intros (G & P & _). unfold get_option. now rewrite G, P. Qed.
Lemma frame_nth w w' j o : frame w w' -> nth_error (heap w) j = Some o -> exists o', nth_error (heap w') j = Some o' /\ same o o'.
Proof. intros (_ & _ & H) E. specialize (H j). rewrite E in H. destruct (nth_error (heap w') j) as [o'|]; [|destruct H]. now exists o'. Qed.
Lemma frame_not_renamed p w w' id : frame w w' -> not_renamed_to p w id -> not_renamed_to p w' id.
Proof.
  intros F H o n I D. rewrite (frame_get _ _ _ _ F). apply In_nth_error in I as (j & E).
  pose proof F as (_ & _ & Fj). specialize (Fj j). rewrite E in Fj. destruct (nth_error (heap w) j) as [o0|] eqn:E0; [|destruct Fj].
  apply (H o0); [eapply nth_error_In; eassumption|]. destruct Fj as (_&_&_&_&_&Hd&_). congruence.
Qed.

(** ** setting an option *)
Section S.
Variable eval : bytes -> option value.
Variable p : option nat.

(** what is read of a string *)
Definition read (o : opt) (s : bytes) : option value :=
  match early_array eval (type o) s with
  | None => None
  | Some res =>
      match depr o with
      | None => late (type o) s res
      | Some d =>
          match match d with DValues l => deprecated_values (type o) l s res | _ => Some res end with
          | Some (Some (VStr s)) => late (type o) s (Some (VStr s))
          | Some (Some v) => Some v
          | Some None => late (type o) s None
          | None => None
          end
      end
  end.
Lemma coerce_inv set w o nv w' v : coerce_option_override eval p set w o nv = KOk w' v ->
  exists s, nv = VStr s /\ read o s = Some v
    /\ (w' = w
        \/ (exists n id r, depr o = Some (DRename n) /\ get_option w p n = Some id /\ set w id s = Done w' r)
        \/ (exists n l, depr o = Some (DRename n) /\ w' = with_overrides l w)).
Proof.
  unfold coerce_option_override. destruct nv as [s| | | | | |]; try discriminate.
  intros E. exists s. split; [reflexivity|]. revert E. unfold read.
  destruct (early_array eval (type o) s) as [res|]; [|discriminate].
  destruct (depr o) as [[b|n|l]|].
  - intros E. destruct res as [[t| | | | | |]|]; try destruct (late (type o) _ _) eqn:L; try discriminate; injection E as <- <-; (split; [congruence|now left]).
  - intros E.
    destruct (get_option w p n) as [id|] eqn:G.
    + destruct (set w id s) as [w1 r| |] eqn:T; [|discriminate..].
      assert (w' = w1) as -> by (destruct res as [[t| | | | | |]|]; try destruct (late (type o) _ _) eqn:L; try discriminate; injection E as <- <-; reflexivity).
      split; [destruct res as [[t| | | | | |]|]; try destruct (late (type o) _ _) eqn:L; try discriminate; injection E as <-; reflexivity|].
      right. left. exists n, id, r. tauto.
    + match type of E with context [with_overrides ?x w] => set (w1 := with_overrides x w) in E end.
      assert (w' = w1) as -> by (destruct res as [[t| | | | | |]|]; try destruct (late (type o) _ _) eqn:L; try discriminate; injection E as <- <-; reflexivity).
      split; [destruct res as [[t| | | | | |]|]; try destruct (late (type o) _ _) eqn:L; try discriminate; injection E as <-; reflexivity|].
      right. right. exists n. eexists. split; [reflexivity|]. unfold w1. reflexivity.
  - intros E. destruct (deprecated_values (type o) l s res) as [res'|]; [|discriminate].
    destruct res' as [[t| | | | | |]|]; try destruct (late (type o) _ _) eqn:L; try discriminate; injection E as <- <-; (split; [congruence|now left]).
  - intros E. destruct (late (type o) s res); [|discriminate]. injection E as <- <-. split; [congruence|now left].
Qed.
Lemma coerce_err set w o nv w' : coerce_option_override eval p set w o nv = KErr w' ->
  w' = w
  \/ (exists n id r s, depr o = Some (DRename n) /\ get_option w p n = Some id /\ set w id s = Done w' r)
  \/ (exists n l, depr o = Some (DRename n) /\ w' = with_overrides l w).
Proof.
  unfold coerce_option_override. destruct nv as [s| | | | | |]; try discriminate.
  destruct (early_array eval (type o) s) as [res|]; [|intros [= <-]; now left].
  destruct (depr o) as [[b|n|l]|].
  - intros E. destruct res as [[t| | | | | |]|]; try destruct (late (type o) _ _) eqn:L; try discriminate; injection E as <-; tauto.
  - intros E. destruct (get_option w p n) as [id|] eqn:G.
    + destruct (set w id s) as [w1 r| |] eqn:T; [|discriminate..].
      assert (w' = w1) as -> by (destruct res as [[t| | | | | |]|]; try destruct (late (type o) _ _) eqn:L; try discriminate; injection E as <-; reflexivity).
      right. left. exists n, id, r, s. tauto.
    + match type of E with context [with_overrides ?x w] => set (w1 := with_overrides x w) in E end.
      assert (w' = w1) as -> by (destruct res as [[t| | | | | |]|]; try destruct (late (type o) _ _) eqn:L; try discriminate; injection E as <-; reflexivity).
      right. right. exists n. eexists. split; [reflexivity|]. unfold w1. reflexivity.
  - intros E. destruct (deprecated_values (type o) l s res) as [res'|]; [|discriminate].
    destruct res' as [[t| | | | | |]|]; try destruct (late (type o) _ _) eqn:L; try discriminate; injection E as <-; tauto.
  - intros E. destruct (late (type o) s res); [discriminate|]. injection E as <-. tauto.
Qed.

(** what happens before the checks: nothing, another option is set, or an override is noted *)
Lemma set_option_inv fuel w id v s c w' r o : set_option eval p (S fuel) w id v s c = Done w' r ->
  nth_error (heap w) id = Some o ->
  (rank s < rank (src o) /\ w' = w /\ r = true)
  \/ (rank (src o) <= rank s /\ exists w1, let w0 := change id (with_src s) w in
        (w1 = w0
         \/ (exists n id2 r2 t, depr o = Some (DRename n) /\ get_option w p n = Some id2
               /\ set_option eval p fuel w0 id2 (VStr t) SDeprecatedRename true = Done w1 r2)
         \/ (exists n l, depr o = Some (DRename n) /\ w1 = with_overrides l w0))
        /\ ((r = false /\ w' = w1)
            \/ (r = true /\ exists x y, (if c then exists t, v = VStr t /\ read o t = Some x else x = v)
                  /\ check o x = COk y /\ w' = change id (with_val y) w1))).
Proof.
  cbn [set_option]. intros E N. rewrite N in E. destruct (Nat.ltb_spec (rank s) (rank (src o))) as [L|L].
  - injection E as <- <-. now left.
  - right. split; [assumption|]. cbn zeta in *. set (w0 := change id (with_src s) w) in *.
    assert (G : forall n, get_option w0 p n = get_option w p n) by (intros n; apply frame_get; apply frame_change; intros; apply same_src).
    assert (D : depr (with_src s o) = depr o) by reflexivity.
    destruct c.
    + destruct (coerce_option_override eval p _ w0 (with_src s o) v) as [w1 x|w1| |] eqn:C; try discriminate.
      * apply coerce_inv in C as (t & -> & R & X). exists w1. split.
        -- destruct X as [->|[(n & id2 & r2 & Dn & Gn & T)|(n & l & Dn & ->)]].
           ++ now left.
           ++ right. left. exists n, id2, r2, t. rewrite <- G. tauto.
           ++ right. right. now exists n, l.
        -- destruct (check o x) as [y| |] eqn:K; try discriminate; injection E as <- <-.
           ++ right. split; [reflexivity|]. exists x, y. split; [|tauto]. exists t. split; [reflexivity|]. exact R.
           ++ now left.
      * injection E as <- <-. exists w1. split; [|now left]. apply coerce_err in C.
        destruct C as [->|[(n & id2 & r2 & t & Dn & Gn & T)|(n & l & Dn & ->)]].
        -- now left.
        -- right. left. exists n, id2, r2, t. rewrite <- G. tauto.
        -- right. right. now exists n, l.
    + exists w0. split; [now left|]. destruct (check o v) as [y| |] eqn:K; try discriminate; injection E as <- <-.
      * right. split; [reflexivity|]. exists v, y. tauto.
      * now left.
Qed.
Lemma set_option_frame fuel : forall w id v s c w' r, set_option eval p fuel w id v s c = Done w' r -> frame w w'.
Proof.
  induction fuel as [|fuel IH]; intros w id v s c w' r E; [discriminate|].
  destruct (nth_error (heap w) id) as [o|] eqn:N; [|cbn [set_option] in E; rewrite N in E; discriminate].
  apply (set_option_inv _ _ _ _ _ _ _ _ o) in E; [|assumption].
  destruct E as [(_ & -> & _)|(_ & w1 & X & Y)]; [apply frame_refl|].
  assert (F0 : frame w (change id (with_src s) w)) by (apply frame_change; intros; apply same_src).
  assert (F1 : frame w w1).
  { destruct X as [->|[(n & id2 & r2 & t & _ & _ & T)|(n & l & _ & ->)]]; [assumption| |].
    - eapply frame_trans; [eassumption|]. eapply IH; eassumption.
    - eapply frame_trans; [eassumption|]. apply frame_overrides. }
  destruct Y as [(_ & ->)|(_ & x & y & _ & _ & ->)]; [assumption|].
  eapply frame_trans; [eassumption|]. apply frame_change. intros. apply same_val.
Qed.
(** other options stay as they are *)
Lemma set_other fuel id : forall w j v s c w' r, set_option eval p fuel w j v s c = Done w' r -> j <> id -> not_renamed_to p w id ->
  nth_error (heap w') id = nth_error (heap w) id.
Proof.
  induction fuel as [|fuel IH]; intros w j v s c w' r E NE NR; [discriminate|].
  destruct (nth_error (heap w) j) as [o|] eqn:N; [|cbn [set_option] in E; rewrite N in E; discriminate].
  apply (set_option_inv _ _ _ _ _ _ _ _ o) in E; [|assumption].
  destruct E as [(_ & -> & _)|(_ & w1 & X & Y)]; [reflexivity|].
  assert (E1 : nth_error (heap w1) id = nth_error (heap w) id).
  { rewrite <- (change_other j id (with_src s) w) by assumption.
    destruct X as [->|[(n & id2 & r2 & t & Dn & Gn & T)|(n & l & _ & ->)]]; [reflexivity| |reflexivity].
    eapply IH; [exact T| |].
    - intros ->. apply (NR o n); [eapply nth_error_In; eassumption|assumption..].
    - eapply frame_not_renamed; [|exact NR]. apply frame_change. intros; apply same_src. }
  destruct Y as [(_ & ->)|(_ & x & y & _ & _ & ->)]; [assumption|].
  rewrite change_other by assumption. exact E1.
Qed.

(** the value a setting gives an option *)
Definition denote (o : opt) (v : value) (c : bool) : option value :=
  match (if c then match v with VStr s => read o s | _ => None end else Some v) with
  | Some x => match check o x with COk y => Some y | _ => None end
  | None => None
  end.
Lemma denote_same o o' v c : same o o' -> denote o' v c = denote o v c.
Proof.
  intros Hs. pose proof Hs as (_&Ht&_&_&_&Hd&_). unfold denote, read. rewrite Ht, Hd.
  destruct (if c then _ else _); [|reflexivity]. now rewrite (check_same _ _ _ Hs).
Qed.
Lemma set_self fuel w id v s c w' r o : set_option eval p fuel w id v s c = Done w' r -> nth_error (heap w) id = Some o ->
  not_renamed_to p w id ->
  exists o', nth_error (heap w') id = Some o' /\ same o o' /\
    if rank s <? rank (src o) then o' = o /\ r = true
    else src o' = s /\ if r then denote o v c = Some (val o') else val o' = val o.
Proof.
  destruct fuel as [|fuel]; [discriminate|]. intros E N NR.
  apply (set_option_inv _ _ _ _ _ _ _ _ o) in E; [|assumption].
  destruct E as [(L & -> & ->)|(L & w1 & X & Y)].
  - exists o. split; [assumption|]. split; [apply same_refl|]. apply Nat.ltb_lt in L. rewrite L. now split.
  - apply Nat.ltb_ge in L. rewrite L.
    assert (E1 : nth_error (heap w1) id = Some (with_src s o)).
    { rewrite <- (change_same id (with_src s) w) by assumption.
      destruct X as [->|[(n & id2 & r2 & t & Dn & Gn & T)|(n & l & _ & ->)]]; [reflexivity| |reflexivity].
      eapply set_other; [exact T| |].
      - intros ->. apply (NR o n); [eapply nth_error_In; eassumption|assumption..].
      - eapply frame_not_renamed; [|exact NR]. apply frame_change. intros; apply same_src. }
    destruct Y as [(-> & ->)|(-> & x & y & R & K & ->)].
    + exists (with_src s o). split; [assumption|]. split; [apply same_src|]. now split.
    + exists (with_val y (with_src s o)). split; [now apply change_same|]. split; [repeat split|]. split; [reflexivity|].
      cbn [val with_val]. unfold denote. destruct c.
      * destruct R as (t & -> & R). rewrite R, K. reflexivity.
      * subst x. rewrite K. reflexivity.
Qed.

(** a sequence of settings *)
Definition mine (id : nat) (l : list setting) : list setting := filter (fun s => s_id s =? id) l.
Fixpoint replay (o : opt) (sv : source * value) (l : list setting) : source * value :=
  match l with
  | [] => sv
  | s :: l =>
      replay o (if rank (s_src s) <? rank (fst sv) then sv
                else (s_src s, match denote o (s_val s) (s_coerce s) with Some v => v | None => snd sv end)) l
  end.
Lemma replay_same o o' : same o o' -> forall l sv, replay o' sv l = replay o sv l.
Proof. intros Hs. induction l as [|s l IH]; intros sv; cbn [replay]; [reflexivity|]. rewrite IH. now rewrite (denote_same _ _ _ _ Hs). Qed.
Lemma settings_replay w l w' id o : settings eval p w l w' -> nth_error (heap w) id = Some o -> not_renamed_to p w id ->
  exists o', nth_error (heap w') id = Some o' /\ same o o' /\ (src o', val o') = replay o (src o, val o) (mine id l)
    /\ forall s, In s (mine id l) -> (forall t, In t (mine id l) -> rank (s_src t) <= rank (s_src s)) -> rank (src o) <= rank (s_src s) ->
         denote o (s_val s) (s_coerce s) <> None.
Proof.
  intros H. revert o. induction H as [w|w s l w1 w' fuel E H IH]; intros o N NR; cbn [mine filter].
  - exists o. split; [assumption|]. split; [apply same_refl|]. split; [reflexivity|]. intros s [].
  - assert (F : frame w w1) by (eapply set_option_frame; eassumption).
    pose proof (frame_not_renamed _ _ _ _ F NR) as NR1.
    destruct (Nat.eqb_spec (s_id s) id) as [Es|Es].
    + rewrite Es in E. destruct (set_self _ _ _ _ _ _ _ _ _ E N NR) as (o1 & N1 & S1 & X).
      destruct (IH o1 N1 NR1) as (o' & N' & S' & R & A). exists o'. split; [assumption|]. split; [eapply same_trans; eassumption|].
      fold (mine id l). cbn [replay fst snd]. split.
      * rewrite R. rewrite (replay_same _ _ S1). f_equal.
        destruct (rank (s_src s) <? rank (src o)); [destruct X as [-> _]; reflexivity|]. destruct X as [-> ->]. reflexivity.
      * intros t It M L. destruct It as [<-|It].
        -- apply Nat.ltb_ge in L. rewrite L in X. destruct X as [_ ->]. discriminate.
        -- rewrite <- (denote_same _ _ _ _ S1). apply A; [assumption|intros u Iu; apply M; now right|].
           destruct (rank (s_src s) <? rank (src o)); [destruct X as [-> _]; assumption|]. destruct X as [-> _]. apply M. now left.
    + rewrite (set_other _ _ _ _ _ _ _ _ _ E Es NR) in *.
      destruct (IH o N NR1) as (o' & N' & S' & R & A). exists o'. tauto.
Qed.

(** ** what is read *)
Lemma deprecated_text t l s res res' : t <> OpArray -> deprecated_values t l s res = Some res' ->
  (exists n, In (s, Some n) l /\ res' = Some (VStr n)) \/ ((forall n, ~ In (s, Some n) l) /\ res' = res).
Proof.
  intros Ht. revert res. induction l as [|[old new] l IH]; intros res E.
  - cbn in E. injection E as <-. right. split; [intros n []|reflexivity].
  - assert (E' : deprecated_values t l s (if beqb s old then match new with Some n => Some (VStr n) | None => res end else res) = Some res')
      by (destruct t; [exact E..|contradiction|exact E]).
    destruct (IH _ E') as [(n & I & ->)|[NI ->]].
    + left. exists n. split; [now right|reflexivity].
    + destruct (beqb_spec s old) as [<-|N]; [destruct new as [n|]|].
      * left. exists n. split; [now left|reflexivity].
      * right. split; [|reflexivity]. intros n [[=]|I]. now apply (NI n).
      * right. split; [|reflexivity]. intros n [[= <-]|I]; [congruence|]. now apply (NI n).
Qed.
Lemma replace_first_spec old new l : first_replaced old new l (replace_first (VStr old) (VStr new) l).
Proof.
  induction l as [|x l IH]; cbn [replace_first].
  - left. split; [intros []|reflexivity].
  - destruct (value_eqb x (VStr old)) eqn:E.
    + apply value_eqb_eq in E as ->. right. exists [], l. cbn. tauto.
    + assert (N : x <> VStr old) by (intros ->; rewrite value_eqb_refl in E; discriminate).
      destruct IH as [[NI ->]|(a & b & -> & NI & ->)].
      * left. split; [intros [H|H]; contradiction|reflexivity].
      * right. exists (x :: a), b. split; [reflexivity|]. split; [intros [H|H]; contradiction|reflexivity].
Qed.
Lemma deprecated_array l s v res' : deprecated_values OpArray l s (Some v) = Some res' ->
  res' = Some v \/ exists a b, v = VArr a /\ res' = Some (VArr b).
Proof.
  revert v. induction l as [|[old new] l IH]; intros v E; cbn [deprecated_values] in E.
  - injection E as <-. now left.
  - destruct v as [| | | |a| |]; try discriminate. right. apply IH in E as [->|(x & y & [= <-] & ->)]; eauto.
Qed.
Lemma deprecated_array_all l s : forall a b, deprecated_values OpArray l s (Some (VArr a)) = Some (Some (VArr b)) -> all_replaced l a b.
Proof.
  induction l as [|[old new] l IH]; intros a b E; cbn [deprecated_values] in E.
  - injection E as <-. reflexivity.
  - destruct new as [n|]; cbn [all_replaced].
    + eexists. split; [apply replace_first_spec|]. now apply IH.
    + now apply IH.
Qed.
Lemma c_str_id s : no_nul s -> c_str s = s.
Proof.
  induction s as [|c s IH]; intros N; [reflexivity|]. cbn [c_str]. destruct (ceqb_spec c NUL) as [->|]; [exfalso; apply N; now left|].
  rewrite IH; [reflexivity|]. intros I. apply N. now right.
Qed.
Lemma coerce_feature_inv s f : coerce_feature s = Some f -> text_means OpFeature s (VFeature f).
Proof.
  unfold coerce_feature. cbn [text_means]. destruct (beqb_spec s (B "auto")) as [->|]; [intros [= <-]; tauto|].
  destruct (beqb_spec s (B "enabled")) as [->|]; [intros [= <-]; tauto|].
  destruct (beqb_spec s (B "disabled")) as [->|]; [intros [= <-]; tauto|discriminate].
Qed.
Lemma late_means t s res v : t <> OpArray -> no_nul s -> late t s res = Some v -> text_means t s v.
Proof.
  intros Ht NN E. destruct t; cbn [late text_means] in *.
  - now injection E as <-.
  - destruct (beqb_spec s (B "true")) as [->|]; [injection E as <-; tauto|].
    destruct (beqb_spec s (B "false")) as [->|]; [injection E as <-; tauto|discriminate].
  - now injection E as <-.
  - rewrite (c_str_id s NN) in E. destruct (strtol s) as [n rest] eqn:L.
    destruct s as [|c s]; [discriminate|]. cbn [length Nat.eqb orb] in E. destruct rest as [|]; [|discriminate]. cbn in E. injection E as <-.
    destruct (strtol_inv _ _ _ L) as [(k & z & E & R & -> & _)|(_ & ? & _)]; [|discriminate].
    rewrite app_nil_r in E. subst k. exists z. split; [assumption|]. unfold clamp, LONG_MAX, LONG_MIN. reflexivity.
  - contradiction.
  - destruct (coerce_feature s) as [f|] eqn:C; [|discriminate]. injection E as <-. now apply coerce_feature_inv.
Qed.
Lemma early_elements s res : early_array eval OpArray s = Some res -> exists l, res = Some l /\ elements eval s l.
Proof.
  unfold elements. destruct s as [|c s]; cbn [early_array].
  - intros [= <-]. exists (VArr []). tauto.
  - destruct (ceqb_spec c "["%char) as [->|N].
    + intros E. destruct (eval ("["%char :: s)) as [v|] eqn:V; [|discriminate]. injection E as <-. exists v. split; [reflexivity|].
      right. left. exists s. tauto.
    + intros E. destruct (str_split _ _ _) as [ps|] eqn:P; [|discriminate]. injection E as <-. eexists. split; [reflexivity|].
      right. right. split; [discriminate|]. split; [intros r [= X]; contradiction|]. exists ps. split; [reflexivity|].
      unfold str_split in P. destruct (split_loop_spec (B ",") (S (length (c :: s))) ltac:(discriminate) (c :: s) [] []) as (qs & E & L).
      * lia.
      * intros a b H. cbn. lia.
      * rewrite P in E. injection E as ->. cbn [app] in L. split; [now apply leftmost_join in L|].
        apply leftmost_clear in L; [|discriminate]. eapply Forall_impl; [|exact L]. intros x NO I. apply NO.
        apply in_split in I as (a & b & ->). now exists a, b.
Qed.
Lemma read_means o s v : clean o (VStr s) -> (type o = OpArray -> exists l, v = VArr l) -> read o s = Some v -> string_means eval o s v.
Proof.
  intros [C1 C2] HA E. specialize (C1 s eq_refl). unfold read in E. unfold string_means.
  assert (NT : forall t, t = type o -> t <> OpArray -> early_array eval t s = Some None) by (intros t _ N; destruct t; try reflexivity; contradiction).
  assert (K : type o <> OpArray ->
    match depr o with
    | Some (DValues d) => (exists n, In (s, Some n) d /\ text_means (type o) n v) \/ ((forall n, ~ In (s, Some n) d) /\ text_means (type o) s v)
    | _ => text_means (type o) s v
    end).
  { intros N. rewrite (NT _ eq_refl N) in E. destruct (depr o) as [[b|n|d]|] eqn:D.
    - eapply late_means; eassumption.
    - eapply late_means; eassumption.
    - destruct (deprecated_values (type o) d s None) as [res|] eqn:V; [|discriminate].
      apply deprecated_text in V as [(n & I & ->)|[NI ->]]; [| |assumption].
      + left. exists n. split; [assumption|]. eapply late_means; [assumption| |eassumption]. eapply C2; [reflexivity|exact I].
      + right. split; [assumption|]. eapply late_means; eassumption.
    - eapply late_means; eassumption. }
  destruct (type o) eqn:T; try (apply K; discriminate). clear K NT.
  destruct (early_array eval OpArray s) as [res|] eqn:A; [|discriminate]. apply early_elements in A as (l & -> & EL).
  destruct (HA eq_refl) as (x & ->). exists l. split; [assumption|]. destruct (depr o) as [[b|n|d]|].
  - destruct l; cbn [late] in E; congruence.
  - destruct l; cbn [late] in E; congruence.
  - destruct (deprecated_values OpArray d s (Some l)) as [res|] eqn:V; [|discriminate].
    pose proof (deprecated_array _ _ _ _ V) as X.
    assert (res = Some (VArr x)) as -> by (destruct res as [[| | | | | |]|]; cbn [late] in E; congruence).
    assert (exists a, l = VArr a) as (a & ->) by (destruct X as [[= <-]|(a & b & -> & _)]; eauto).
    exists a, x. split; [reflexivity|]. split; [now apply deprecated_array_all in V|reflexivity].
  - cbn [late] in E. congruence.
Qed.
Lemma check_value o x y : check o x = COk y -> typecheck_opt (type o) x = Some y.
Proof.
  unfold check. destruct (typecheck_opt (type o) x) as [v|]; [|discriminate]. intros E. f_equal.
  destruct (type o); [congruence..| | | |congruence].
  - destruct (choices o) as [l|]; [|discriminate]. destruct (array_in l v); congruence.
  - destruct v; try discriminate. destruct (_ || _); congruence.
  - destruct (choices o) as [l|]; [|congruence]. destruct v; try discriminate. destruct (forallb _ _); congruence.
Qed.
Lemma denote_means o nv c v : clean o nv -> (c = false -> nv <> VDisabler) -> (forall s, eval s <> Some VDisabler) ->
  denote o nv c = Some v -> means eval o nv c v.
Proof.
  intros C ND EV E. unfold denote in E. unfold means. destruct c.
  - destruct nv as [s| | | | | |]; try discriminate. exists s. split; [reflexivity|].
    destruct (read o s) as [x|] eqn:R; [|discriminate]. destruct (check o x) as [y| |] eqn:K; try discriminate. injection E as <-.
    apply check_value in K.
    assert (x = y) as ->.
    { destruct (type o) eqn:T, x; cbn in K; try congruence. exfalso.
      unfold read in R. rewrite T in R. cbn [early_array] in R. destruct (depr o) as [[b|n|d]|].
      + cbn [late] in R. destruct (coerce_feature s); discriminate.
      + cbn [late] in R. destruct (coerce_feature s); discriminate.
      + destruct (deprecated_values OpFeature d s None) as [res|] eqn:V; [|discriminate].
        apply deprecated_text in V as [(m & I & ->)|[NI ->]]; [| |discriminate]; cbn [late] in R; destruct (coerce_feature _); discriminate.
      + cbn [late] in R. destruct (coerce_feature s); discriminate. }
    apply read_means; [assumption| |assumption]. intros T. rewrite T in K.
    destruct y; cbn in K; try discriminate; eauto.
    exfalso. unfold read in R. rewrite T in R. destruct (early_array eval OpArray s) as [res|] eqn:A; [|discriminate].
    pose proof A as A'. apply early_elements in A as (l & -> & EL).
    assert (NL : l <> VDisabler).
    { intros ->. destruct EL as [[_ [=]]|[(r & _ & H)|(_ & _ & q & [=] & _)]]. now apply (EV s). }
    destruct (depr o) as [[b|n|d]|].
    + destruct l; cbn [late] in R; congruence.
    + destruct l; cbn [late] in R; congruence.
    + destruct (deprecated_values OpArray d s (Some l)) as [res|] eqn:V; [|discriminate].
      apply deprecated_array in V as [->|(a & b & -> & ->)]; [|discriminate]. destruct l; cbn [late] in R; congruence.
    + cbn [late] in R. congruence.
  - destruct (check o nv) as [y| |] eqn:K; try discriminate. injection E as <-. apply check_value in K.
    destruct (type o) eqn:T, nv; cbn in K; try congruence. destruct (coerce_feature s) as [f|] eqn:F; [|discriminate]. injection K as <-.
    now apply coerce_feature_inv.
Qed.
End S.

(** ** precedence *)
Lemma precedence_pos i a : nth_error precedence i = Some a -> rank a = i.
Proof. do 9 (destruct i as [|i]; [now intros [= <-]|]). destruct i; discriminate. Qed.
Lemma lt_source_rank a b : lt_source a b <-> rank a < rank b.
Proof.
  split.
  - intros (l & m & n & E).
    assert (nth_error precedence (length l) = Some a) as Ha by (rewrite E, nth_error_app2, Nat.sub_diag by lia; reflexivity).
    assert (nth_error precedence (length l + S (length m)) = Some b) as Hb.
    { rewrite E, nth_error_app2 by lia. replace (length l + S (length m) - length l) with (S (length m)) by lia.
      cbn [nth_error]. rewrite nth_error_app2, Nat.sub_diag by lia. reflexivity. }
    apply precedence_pos in Ha, Hb. lia.
  - intros L. exists (firstn (rank a) precedence), (firstn (rank b - rank a - 1) (skipn (S (rank a)) precedence)), (skipn (S (rank b)) precedence).
    destruct a, b; cbn in L; try lia; reflexivity.
Qed.
Lemma rank_inj a b : rank a = rank b -> a = b.
Proof. destruct a, b; cbn; congruence. Qed.
Lemma le_source_rank a b : lt_source a b \/ a = b <-> rank a <= rank b.
Proof.
  rewrite lt_source_rank. split; [intros [H| ->]; lia|]. intros L.
  destruct (Nat.eq_dec (rank a) (rank b)) as [E|]; [right; now apply rank_inj|left; lia].
Qed.
Lemma replay_app eval o l1 l2 : forall sv, replay eval o sv (l1 ++ l2) = replay eval o (replay eval o sv l1) l2.
Proof. induction l1 as [|s l1 IH]; intros sv; cbn [app replay]; [reflexivity|apply IH]. Qed.
Lemma replay_bound eval o r l : forall sv, rank (fst sv) <= r -> Forall (fun t => rank (s_src t) <= r) l -> rank (fst (replay eval o sv l)) <= r.
Proof.
  induction l as [|s l IH]; intros sv H F; cbn [replay]; [assumption|]. inversion F; subst. apply IH; [|assumption].
  destruct (rank (s_src s) <? rank (fst sv)); assumption.
Qed.
Lemma replay_lower eval o l : forall sv, Forall (fun t => rank (s_src t) < rank (fst sv)) l -> replay eval o sv l = sv.
Proof.
  induction l as [|s l IH]; intros sv F; cbn [replay]; [reflexivity|]. inversion F; subst.
  apply Nat.ltb_lt in H1. rewrite H1. now apply IH.
Qed.
Lemma replay_winner eval o sv l s v : winner l s -> rank (fst sv) <= rank (s_src s) -> denote eval o (s_val s) (s_coerce s) = Some v ->
  replay eval o sv l = (s_src s, v).
Proof.
  intros (pre & post & -> & F1 & F2) L D. rewrite replay_app. cbn [replay].
  assert (rank (fst (replay eval o sv pre)) <= rank (s_src s)) as B1.
  { apply replay_bound; [assumption|]. eapply Forall_impl; [|exact F1]. intros t Ht. now apply le_source_rank. }
  apply Nat.ltb_ge in B1. rewrite B1, D. apply replay_lower. eapply Forall_impl; [|exact F2]. intros t Ht. now apply lt_source_rank.
Qed.
Lemma winner_max l s : winner l s -> In s l /\ forall t, In t l -> rank (s_src t) <= rank (s_src s).
Proof.
  intros (pre & post & -> & F1 & F2). split; [rewrite in_app_iff; cbn; tauto|]. rewrite Forall_forall in F1, F2. intros t I.
  apply in_app_or in I as [I|[<-|I]]; [now apply le_source_rank, F1|lia|]. specialize (F2 t I). apply lt_source_rank in F2. lia.
Qed.
Lemma winner_exists l : l <> [] -> exists s, winner l s.
Proof.
  induction l as [|s l IH]; intros N; [contradiction|]. destruct l as [|t l].
  - exists s, [], []. repeat split; constructor.
  - destruct IH as (u & pre & post & E & F1 & F2); [discriminate|].
    destruct (le_lt_dec (rank (s_src s)) (rank (s_src u))) as [L|L].
    + exists u, (s :: pre), post. split; [rewrite E; reflexivity|]. split; [|assumption]. constructor; [now apply le_source_rank|assumption].
    + exists s, [], (t :: l). split; [reflexivity|]. split; [constructor|].
      assert (winner (t :: l) u) as W by (exists pre, post; tauto). apply winner_max in W as [_ W].
      apply Forall_forall. intros x I. apply lt_source_rank. specialize (W x I). lia.
Qed.

(** ** values conform *)
Definition all_conform (w : ws) : Prop := Forall conforms (heap w).
Lemma conform_nth w j o : all_conform w -> nth_error (heap w) j = Some o -> conforms o.
Proof. intros H E. apply nth_error_In in E. rewrite (Forall_forall conforms (heap w)) in H. now apply H. Qed.
Lemma conform_change id f w : all_conform w -> (forall o, nth_error (heap w) id = Some o -> conforms (f o)) -> all_conform (change id f w).
Proof.
  intros H Hf. unfold all_conform. rewrite change_heap. destruct (nth_error (heap w) id) as [o|] eqn:E; [|assumption].
  apply Forall_forall. intros x I. apply In_nth_error in I as (j & J). destruct (Nat.eq_dec id j) as [<-|N].
  - rewrite nth_error_upd_same in J by (apply nth_error_Some; congruence). injection J as <-. now apply Hf.
  - rewrite nth_error_upd_other in J by assumption. eapply conform_nth; eassumption.
Qed.
Lemma conform_src w id s : all_conform w -> all_conform (change id (with_src s) w).
Proof. intros H. apply conform_change; [assumption|]. intros o E. apply (conform_nth _ _ _ H E). Qed.

Section R.
Variable eval : bytes -> option value.
Hypothesis EV : forall s, eval s <> Some VDisabler.

Lemma late_disabler t s res v : late t s res = Some v -> res <> Some VDisabler -> v <> VDisabler.
Proof.
  intros E N ->. destruct t; cbn [late] in E; try discriminate; try contradiction.
  - destruct (beqb s _); [discriminate|]. destruct (beqb s _); discriminate.
  - destruct (strtol (c_str s)). destruct (_ || _); discriminate.
  - destruct (coerce_feature s); discriminate.
Qed.
Lemma read_disabler o s v : read eval o s = Some v -> v <> VDisabler.
Proof.
  unfold read. destruct (early_array eval (type o) s) as [res|] eqn:A; [|discriminate].
  assert (NR : res <> Some VDisabler).
  { intros ->. destruct (type o); cbn [early_array] in A; try discriminate. apply early_elements in A as (l & X & Y). injection X as <-.
    destruct Y as [(_ & Y)|[(r & _ & Y)|(_ & _ & q & Y & _)]]; try discriminate. now apply (EV s). }
  assert (K : match res with Some (VStr t) => late (type o) t (Some (VStr t)) | Some x => Some x | None => late (type o) s None end = Some v -> v <> VDisabler).
  { destruct res as [[t| | | | | |]|]; try (intros [= <-]; discriminate); try congruence; intros E; eapply late_disabler; try exact E; discriminate. }
  destruct (depr o) as [[b|n|d]|].
  - exact K.
  - exact K.
  - destruct (deprecated_values (type o) d s res) as [res'|] eqn:V; [|discriminate].
    assert (res' <> Some VDisabler) as NR'.
    { destruct (type o) eqn:T; try (apply deprecated_text in V as [(n & _ & ->)|[_ ->]]; [discriminate|assumption|discriminate]).
      apply early_elements in A as (l & -> & _). apply deprecated_array in V as [->|(a & b & _ & ->)]; [assumption|discriminate]. }
    destruct res' as [[t| | | | | |]|]; try (intros [= <-]; discriminate); try congruence; intros E; eapply late_disabler; try exact E; discriminate.
  - intros E. eapply late_disabler; eassumption.
Qed.
Lemma set_conform p fuel : forall w id v s c w' r, all_conform w -> v <> VDisabler -> set_option eval p fuel w id v s c = Done w' r -> all_conform w'.
Proof.
  induction fuel as [|fuel IH]; intros w id v s c w' r H N E; [discriminate|].
  destruct (nth_error (heap w) id) as [o|] eqn:No; [|cbn [set_option] in E; rewrite No in E; discriminate].
  apply (set_option_inv _ _ _ _ _ _ _ _ _ _ o) in E; [|assumption].
  destruct E as [(_ & -> & _)|(_ & w1 & X & Y)]; [assumption|].
  assert (H0 : all_conform (change id (with_src s) w)) by now apply conform_src.
  assert (F0 : frame w (change id (with_src s) w)) by (apply frame_change; intros; apply same_src).
  assert (all_conform w1 /\ frame w w1) as [H1 F1].
  { destruct X as [->|[(n & id2 & r2 & t & _ & _ & T)|(n & l & _ & ->)]]; [now split| |].
    - split; [eapply IH; [exact H0| |exact T]; discriminate|]. eapply frame_trans; [exact F0|]. eapply set_option_frame; exact T.
    - split; [exact H0|]. eapply frame_trans; [exact F0|apply frame_overrides]. }
  destruct Y as [(_ & ->)|(_ & x & y & R & K & ->)]; [assumption|].
  apply conform_change; [assumption|]. intros o1 E1. destruct (frame_nth _ _ _ _ F1 No) as (o2 & E2 & S2).
  assert (o2 = o1) as -> by congruence. eapply check_conforms; [|exact K|exact S2].
  destruct c; [destruct R as (t & _ & R); now apply read_disabler in R|now subst].
Qed.
Lemma conform_disabler o : conforms o -> val o <> VDisabler.
Proof. unfold conforms. destruct (type o); intros H E; rewrite E in H; repeat (destruct H as (? & H)); discriminate. Qed.
Lemma setup_conform fuel : forall w p i ok w' r, all_conform w -> setup_overrides eval fuel w p i ok = Done w' r -> all_conform w'.
Proof.
  induction fuel as [|fuel IH]; intros w p i ok w' r H E; cbn [setup_overrides] in E; [discriminate|].
  destruct (nth_error (overrides w) i) as [oo|]; [|injection E as <- _; assumption].
  destruct (nth_error (projects w) p) as [pr|]; [|discriminate].
  destruct (name_matches (sub_name pr) (o_proj oo)); [|eapply IH; eassumption].
  destruct (match index (popts pr) (o_name oo) with Some id => _ | None => _ end) as [id|]; [|eapply IH; eassumption].
  destruct (set_option eval (Some p) (S fuel) w id _ _ _) as [w1 r1| |] eqn:T; try discriminate.
  eapply IH; [|exact E]. eapply set_conform; [exact H| |exact T]. discriminate.
Qed.
Lemma yield_conform fuel p l : forall w w' r, all_conform w -> set_yielding eval fuel w p l = Done w' r -> all_conform w'.
Proof.
  induction l as [|[k id] l IH]; intros w w' r H E; cbn [set_yielding] in E; [injection E as <- _; assumption|].
  destruct (nth_error (heap w) id) as [o|] eqn:No; [|discriminate]. destruct (negb (yield o)); [eapply IH; eassumption|].
  destruct (get_option w (Some 0) (name o)) as [pid|]; [|eapply IH; eassumption].
  destruct (nth_error (heap w) pid) as [po|] eqn:Np; [|discriminate]. destruct (negb _); [eapply IH; eassumption|].
  destruct (set_option eval (Some p) fuel w id _ _ _) as [w1 r1| |] eqn:T; try discriminate.
  assert (all_conform w1) as H1 by (eapply set_conform; [exact H| |exact T]; apply conform_disabler; eapply conform_nth; eassumption).
  destruct r1; [eapply IH; eassumption|injection E as <- _; assumption].
Qed.
Lemma defaults_conform fuel p sub l : forall w w' r, all_conform w -> default_options eval fuel w p sub l = Done w' r -> all_conform w'.
Proof.
  induction l as [|s l IH]; intros w w' r H E; cbn [default_options] in E; [injection E as <- _; assumption|].
  destruct (parse_config_string s) as [[[sb k] v]|]; [|injection E as <- _; assumption].
  destruct (given sub || given sb); [eapply IH; [|exact E]; exact H|].
  destruct (get_option w (Some p) k) as [id|]; [|injection E as <- _; assumption].
  destruct (set_option eval (Some p) fuel w id _ _ _) as [w1 r1| |] eqn:T; try discriminate.
  assert (all_conform w1) as H1 by (eapply set_conform; [exact H| |exact T]; discriminate).
  destruct r1; [eapply IH; eassumption|injection E as <- _; assumption].
Qed.
Lemma override_conform fuel p l : forall w w' r d d', all_conform w -> override_options eval fuel w p l d = (Done w' r, d') -> all_conform w'.
Proof.
  induction l as [|s l IH]; intros w w' r d d' H E; cbn [override_options] in E; [injection E as <- _ _; assumption|].
  destruct (parse_config_string s) as [[[[sb|] k] v]|]; [injection E as <- _ _; assumption| |injection E as <- _ _; assumption].
  destruct (get_option w (Some p) k) as [id|]; [|injection E as <- _ _; assumption].
  destruct (nth_error (heap w) id) as [o|] eqn:No; [|discriminate].
  destruct (set_option eval (Some p) fuel _ _ _ _ _) as [w1 r1| |] eqn:T; try discriminate.
  assert (all_conform w1) as H1.
  { eapply set_conform; [| |exact T]; [|discriminate]. unfold all_conform. cbn [heap with_heap]. apply Forall_app. split; [exact H|].
    constructor; [eapply conform_nth; eassumption|constructor]. }
  destruct r1; [|injection E as <- _ _; assumption].
  destruct (given (index d (name o))); [injection E as <- _ _; assumption|eapply IH; eassumption].
Qed.
Lemma reach_conform w : reach eval w -> all_conform w.
Proof.
  induction 1 as [|w sn cn _ IH|w p d w' ok _ IH ND NDc E|fuel w p id v s c w' ok _ IH ND E|w id l s w' ok o _ IH N NC E|w s w' ok _ IH E
    |fuel w p w' ok _ IH E|fuel w p l w' ok _ IH E|fuel w p sub l w' ok _ IH E|fuel w p l w' ok res _ IH E].
  - constructor.
  - exact IH.
  - unfold declare in E. destruct (type_of (d_type d)) as [t|]; [|injection E as <- <-; assumption].
    destruct (keywords_ok _ _); [|injection E as <- <-; assumption].
    destruct (default_value t d) as [v|] eqn:V; [|injection E as <- <-; assumption].
    destruct (match p with Some _ => _ | None => _ end); [|injection E as <- <-; assumption].
    destruct (check _ v) as [y| |] eqn:K; try discriminate; [|injection E as <- <-; assumption].
    destruct (_ || _); [injection E as <- <-; assumption|]. destruct (get_option w p (d_name d)); [injection E as <- <-; assumption|].
    injection E as <- _.
    assert (C : conforms (with_val y (mkOpt (d_name d) t (d_choices d) (d_min d) (d_max d) (d_depr d) (d_yield d) SDefault v))).
    { destruct (value_eqb v VDisabler) eqn:B.
      - apply value_eqb_eq in B as ->. exfalso. unfold default_value in V. destruct (d_value d) as [x|]; [congruence|].
        destruct t; try discriminate; destruct (d_choices d) as [[|x l]|]; try discriminate. injection V as ->.
        apply (NDc _ eq_refl). now left.
      - eapply check_conforms; [|exact K|apply same_refl]. intros ->. discriminate. }
    unfold add_option. destruct p as [p|].
    + destruct (nth_error (projects w) p); [|assumption]. unfold all_conform. cbn [heap]. apply Forall_app. split; [assumption|]. now repeat constructor.
    + unfold all_conform. cbn [heap]. apply Forall_app. split; [assumption|]. now repeat constructor.
  - eapply set_conform; eassumption.
  - unfold extend_array_option in E. rewrite N in E. destruct (_ <? _); [injection E as <- <-; assumption|].
    destruct (val o) as [| | | |a| |] eqn:V; try discriminate. injection E as <- _. apply conform_change; [now apply conform_src|].
    intros o1 E1. rewrite (change_same _ _ _ _ N) in E1. injection E1 as <-. pose proof (conform_nth _ _ _ IH N) as C.
    unfold conforms in *. cbn [type val choices max min with_val with_src]. rewrite V in C.
    destruct (type o); repeat (destruct C as (? & C)); try discriminate. eexists. split; [reflexivity|]. congruence.
  - unfold cmdline_option in E. destruct (parse_config_string s) as [[[sb k] v]|]; injection E as <- _; exact IH.
  - eapply setup_conform; eassumption.
  - eapply yield_conform; eassumption.
  - eapply defaults_conform; eassumption.
  - eapply override_conform; eassumption.
Qed.
End R.

(** ** every string with a meaning is accepted *)
Lemma array_in_intro l v : In v l -> array_in l v = true.
Proof. intros H. apply existsb_exists. exists v. split; [assumption|apply value_eqb_refl]. Qed.
Lemma check_complete o v : conforms (with_val v o) -> check o v = COk v.
Proof.
  unfold conforms, check. cbn [type val choices max min with_val]. destruct (type o) eqn:T.
  - intros (s & ->). reflexivity.
  - intros (b & ->). reflexivity.
  - intros (s & l & -> & -> & I). cbn. now rewrite array_in_intro.
  - intros (n & -> & M & m). cbn. destruct (max o) as [x|].
    + specialize (M _ eq_refl). replace (x <? n)%Z with false by (symmetry; now apply Z.ltb_ge). cbn.
      destruct (min o) as [y|]; [|reflexivity]. specialize (m _ eq_refl). replace (n <? y)%Z with false by (symmetry; now apply Z.ltb_ge). reflexivity.
    + cbn. destruct (min o) as [y|]; [|reflexivity]. specialize (m _ eq_refl). replace (n <? y)%Z with false by (symmetry; now apply Z.ltb_ge). reflexivity.
  - intros (l & -> & C). cbn. destruct (choices o) as [c|]; [|reflexivity].
    replace (forallb (array_in c) l) with true; [reflexivity|]. symmetry. apply forallb_forall. intros x I. apply array_in_intro. now apply (C c).
  - intros (f & ->). reflexivity.
Qed.
Lemma late_complete t s res v : t <> OpArray -> no_nul s -> text_means t s v -> late t s res = Some v.
Proof.
  intros Ht NN E. destruct t; cbn [late text_means] in *.
  - now subst.
  - destruct E as [[-> ->]|[-> ->]]; reflexivity.
  - now subst.
  - destruct E as (z & R & ->). rewrite (c_str_id s NN). pose proof (strtol_reads s z [] R I) as L. rewrite app_nil_r in L. rewrite L.
    destruct s as [|c s]; [|reflexivity]. destruct R as (ws & sg & ds & E & _ & [N _] & _). destruct ws, sg, ds; try discriminate. contradiction.
  - contradiction.
  - destruct E as [[-> ->]|[[-> ->]|[-> ->]]]; reflexivity.
Qed.
Lemma commas_unique : forall l m, Forall (fun x => ~ In ","%char x) l -> Forall (fun x => ~ In ","%char x) m -> l <> [] -> m <> [] ->
  joinb (B ",") l = joinb (B ",") m -> l = m.
Proof.
  change (B ",") with [","%char]. intros l m Fl Fm Nl Nm E.
  rewrite <- (split_on_joinb ","%char l), <- (split_on_joinb ","%char m) by assumption. now rewrite E.
Qed.
Lemma elements_unique eval s l m : elements eval s l -> elements eval s m -> l = m.
Proof.
  intros H H'. destruct H as [(-> & ->)|[(r & E & X)|(N & NB & q & -> & J & F)]], H' as [(E' & ->)|[(r' & E' & X')|(N' & NB' & q' & -> & J' & F')]].
  - reflexivity.
  - discriminate.
  - contradiction.
  - subst s. discriminate.
  - congruence.
  - exfalso. now apply (NB' r).
  - contradiction.
  - exfalso. now apply (NB r').
  - f_equal. f_equal. apply commas_unique; try assumption; [| |congruence]; intros ->; cbn in *; congruence.
Qed.
Lemma early_complete eval s l : elements eval s l -> early_array eval OpArray s = Some (Some l).
Proof.
  intros H. assert (exists res, early_array eval OpArray s = Some res) as (res & E).
  { destruct s as [|c s]; cbn [early_array]; [eauto|]. destruct (ceqb_spec c "["%char) as [->|N].
    - destruct H as [([=] & _)|[(r & _ & ->)|(_ & NB & _)]]; [cbn; eauto|]. exfalso. now apply (NB s).
    - unfold str_split. destruct (split_loop_spec (B ",") (S (length (c :: s))) ltac:(discriminate) (c :: s) [] []) as (qs & E & L).
      + lia.
      + intros a b X. cbn. lia.
      + rewrite E. cbn. eauto. }
  rewrite E. destruct (early_elements _ _ _ E) as (l' & -> & H'). now rewrite (elements_unique _ _ _ _ H H').
Qed.
Lemma first_replaced_unique old new l m m' : first_replaced old new l m -> first_replaced old new l m' -> m = m'.
Proof.
  intros H H'. destruct H as [[N ->]|(a & b & -> & N & ->)], H' as [[N' ->]|(a' & b' & E & N' & ->)]; try reflexivity.
  - exfalso. apply N. rewrite E. apply in_or_app. right. now left.
  - exfalso. apply N'. apply in_or_app. right. now left.
  - revert a' E N'. induction a as [|x a IH]; intros a' E N'; destruct a' as [|y a'].
    + cbn in *. congruence.
    + exfalso. apply N'. cbn in E. left. congruence.
    + exfalso. apply N. cbn in E. left. congruence.
    + cbn [app] in E. injection E as -> E. cbn [app]. f_equal. apply IH; [| |]; try assumption; intros X; [apply N|apply N']; now right.
Qed.
Lemma all_replaced_unique d : forall l m m', all_replaced d l m -> all_replaced d l m' -> m = m'.
Proof.
  induction d as [|[old [new|]] d IH]; intros l m m' H H'; cbn in *; [congruence| |eauto].
  destruct H as (k & H1 & H2), H' as (k' & H1' & H2'). rewrite (first_replaced_unique _ _ _ _ _ H1' H1) in H2'. eauto.
Qed.
Lemma deprecated_array_complete d s : forall a b, all_replaced d a b -> deprecated_values OpArray d s (Some (VArr a)) = Some (Some (VArr b)).
Proof.
  induction d as [|[old [new|]] d IH]; intros a b H; cbn in *; [congruence| |eauto].
  destruct H as (k & H1 & H2). rewrite (first_replaced_unique _ _ _ _ _ (replace_first_spec (fun _ => None) old new a) H1). eauto.
Qed.
Lemma deprecated_text_total t d s : t <> OpArray -> forall res, deprecated_values t d s res <> None.
Proof.
  intros N. induction d as [|[old new] d IH]; intros res; cbn [deprecated_values]; [discriminate|]. destruct t; try apply IH. contradiction.
Qed.
Lemma read_complete eval o s v : clean o (VStr s) -> (forall d a b, depr o = Some (DValues d) -> In (s, Some a) d -> In (s, Some b) d -> a = b) ->
  (type o = OpArray -> exists l, v = VArr l) -> string_means eval o s v -> read eval o s = Some v.
Proof.
  intros [C1 C2] U HA M. specialize (C1 s eq_refl). unfold string_means in M. unfold read.
  assert (K : type o <> OpArray ->
    match depr o with
    | Some (DValues d) => (exists n, In (s, Some n) d /\ text_means (type o) n v) \/ ((forall n, ~ In (s, Some n) d) /\ text_means (type o) s v)
    | _ => text_means (type o) s v
    end -> match Some (@None value) with
  | None => None
  | Some res =>
      match depr o with
      | None => late (type o) s res
      | Some d =>
          match match d with DValues l => deprecated_values (type o) l s res | _ => Some res end with
          | Some (Some (VStr s)) => late (type o) s (Some (VStr s))
          | Some (Some v) => Some v
          | Some None => late (type o) s None
          | None => None
          end
      end
  end = Some v).
  { clear M. intros N M. destruct (depr o) as [[b|n|d]|] eqn:D; try (now apply late_complete).
    destruct (deprecated_values (type o) d s None) as [res|] eqn:V; [|now apply deprecated_text_total in V].
    apply deprecated_text in V as [(n & I & ->)|[NI ->]]; [| |assumption].
    - destruct M as [(m & I' & M)|[NI _]]; [|now apply NI in I]. rewrite <- (U d n m eq_refl I I') in M.
      apply late_complete; [assumption| |assumption]. eapply C2; [reflexivity|exact I].
    - destruct M as [(m & I' & M)|[_ M]]; [now apply NI in I'|]. now apply late_complete. }
  destruct (type o) eqn:T; try (apply K; [discriminate|exact M]). clear K.
  destruct M as (l & EL & M). rewrite (early_complete _ _ _ EL). destruct (HA eq_refl) as (x & ->).
  destruct (depr o) as [[b|n|d]|].
  - now subst l.
  - now subst l.
  - destruct M as (a & b & -> & R & [= ->]). rewrite (deprecated_array_complete _ _ _ _ R). reflexivity.
  - now subst l.
Qed.
Lemma denote_complete eval o s v : clean o (VStr s) -> (forall d a b, depr o = Some (DValues d) -> In (s, Some a) d -> In (s, Some b) d -> a = b) ->
  string_means eval o s v -> conforms (with_val v o) -> denote eval o (VStr s) true = Some v.
Proof.
  intros C U M F. unfold denote. rewrite (read_complete eval o s v); try assumption.
  - now rewrite check_complete.
  - intros T. unfold conforms in F. cbn [type val with_val] in F. rewrite T in F. destruct F as (l & -> & _). eauto.
Qed.

(** ** without renames *)
Lemma no_renames_to p w id : no_renames w -> not_renamed_to p w id.
Proof. intros H o n I D. exfalso. now apply (H o n I). Qed.
Lemma frame_no_renames w w' : frame w w' -> no_renames w -> no_renames w'.
Proof.
  intros (_ & _ & F) H o n I D. apply In_nth_error in I as (j & E). specialize (F j). rewrite E in F.
  destruct (nth_error (heap w) j) as [o0|] eqn:E0; [|destruct F]. apply (H o0 n); [eapply nth_error_In; eassumption|].
  destruct F as (_&_&_&_&_&Hd&_). congruence.
Qed.
Lemma set_overrides eval p fuel w id v s c w' r : no_renames w -> set_option eval p fuel w id v s c = Done w' r -> overrides w' = overrides w.
Proof.
  intros NR E. destruct fuel as [|fuel]; [discriminate|].
  destruct (nth_error (heap w) id) as [o|] eqn:N; [|cbn [set_option] in E; rewrite N in E; discriminate].
  apply (set_option_inv _ _ _ _ _ _ _ _ _ _ o) in E; [|assumption]. apply nth_error_In in N.
  destruct E as [(_ & -> & _)|(_ & w1 & X & Y)]; [reflexivity|].
  destruct X as [->|[(n & id2 & r2 & t & D & _)|(n & l & D & _)]]; [|now apply NR in D; [|exact N]..].
  destruct Y as [(_ & ->)|(_ & x & y & _ & _ & ->)]; now rewrite !change_overrides.
Qed.
Lemma mine_app id l1 l2 : mine id (l1 ++ l2) = mine id l1 ++ mine id l2.
Proof. apply filter_app. Qed.
Lemma settings_app eval p w l1 w1 l2 w2 : settings eval p w l1 w1 -> settings eval p w1 l2 w2 -> settings eval p w (l1 ++ l2) w2.
Proof. induction 1 as [|w s l w1 w' fuel E H IH]; intros K; cbn; [assumption|]. econstructor; [exact E|]. now apply IH. Qed.
Lemma settings_frame eval p w l w' : settings eval p w l w' -> frame w w'.
Proof.
  induction 1 as [|w s l w1 w' fuel E H IH]; [apply frame_refl|]. eapply frame_trans; [|exact IH]. eapply set_option_frame; exact E.
Qed.
Lemma name_matches_eq a b : name_matches a b = true <-> b = a.
Proof.
  destruct a as [a|], b as [b|]; cbn; try (split; congruence). destruct (beqb_spec b a) as [->|N]; split; congruence.
Qed.
Definition is_for (pr : project) (k : bytes) (x : override) : bool := name_matches (sub_name pr) (o_proj x) && beqb (o_name x) k.
Lemma is_for_eq pr k x : is_for pr k x = true <-> o_proj x = sub_name pr /\ o_name x = k.
Proof.
  unfold is_for. rewrite andb_true_iff, name_matches_eq. destruct (beqb_spec (o_name x) k) as [->|N]; split; intros [? ?]; split; congruence.
Qed.
Lemma skipn_nth {A} (l : list A) : forall i, skipn i l = match nth_error l i with Some x => x :: skipn (S i) l | None => [] end.
Proof. induction l as [|x l IH]; intros [|i]; try reflexivity. cbn [skipn nth_error]. rewrite IH. reflexivity. Qed.
Lemma setup_settings eval fuel pr k id p : forall w i ok w', no_renames w -> nth_error (projects w) p = Some pr -> only_name w pr k id ->
  setup_overrides eval fuel w p i ok = Done w' true ->
  ok = true /\ exists L, settings eval (Some p) w L w'
    /\ mine id L = map (fun x => mkSetting id (VStr (o_val x)) (o_src x) true) (filter (is_for pr k) (skipn i (overrides w))).
Proof.
  induction fuel as [|fuel IH]; intros w i ok w' NR P ON E; cbn [setup_overrides] in E; [discriminate|].
  rewrite skipn_nth. destruct (nth_error (overrides w) i) as [oo|].
  2:{ injection E as <- ->. split; [reflexivity|]. exists []. split; [constructor|reflexivity]. }
  rewrite P in E. cbn [filter]. destruct (name_matches (sub_name pr) (o_proj oo)) eqn:M.
  2:{ replace (is_for pr k oo) with false by (unfold is_for; now rewrite M). apply IH; assumption. }
  destruct (match index (popts pr) (o_name oo) with Some x => _ | None => _ end) as [id'|] eqn:G.
  2:{ apply IH in E as [? _]; [discriminate|assumption..]. }
  destruct (set_option eval (Some p) (S fuel) w id' _ _ _) as [w1 r1| |] eqn:T; try discriminate.
  assert (F : frame w w1) by (eapply set_option_frame; exact T).
  assert (OV : overrides w1 = overrides w) by (eapply set_overrides; eassumption).
  pose proof F as (FG & FP & _).
  apply IH in E as [E (L & HL & ML)]; [|eapply frame_no_renames; eassumption|now rewrite FP|unfold only_name in *; now rewrite FG].
  apply andb_prop in E as [-> ->]. split; [reflexivity|].
  exists (mkSetting id' (VStr (o_val oo)) (o_src oo) true :: L). split; [econstructor; [exact T|exact HL]|].
  rewrite OV in ML. unfold mine in *. cbn [filter s_id].
  assert (is_for pr k oo = (id' =? id)) as ->.
  { destruct ON as [I U]. unfold is_for. rewrite M. cbn. destruct (beqb_spec (o_name oo) k) as [EK|N].
    - rewrite EK, I in G. injection G as ->. symmetry. apply Nat.eqb_refl.
    - symmetry. apply Nat.eqb_neq. intros ->. apply N. apply U.
      destruct (index (popts pr) (o_name oo)) as [x|]; [left; congruence|]. destruct (p =? 0); [now right|discriminate]. }
  destruct (Nat.eqb_spec id' id) as [->|N]; [cbn [map]; now rewrite ML|exact ML].
Qed.
Lemma setup_ids eval fuel pr p : forall w i ok w' r, no_renames w -> nth_error (projects w) p = Some pr ->
  setup_overrides eval fuel w p i ok = Done w' r -> frame w w' /\ forall id,
  (forall k, index (popts pr) k <> Some id) -> (p = 0 -> forall k, index (glob w) k <> Some id) -> nth_error (heap w') id = nth_error (heap w) id.
Proof.
  induction fuel as [|fuel IH]; intros w i ok w' r NR P E; cbn [setup_overrides] in E; [discriminate|].
  destruct (nth_error (overrides w) i) as [oo|]; [|injection E as <- _; split; [apply frame_refl|reflexivity]].
  rewrite P in E. destruct (name_matches (sub_name pr) (o_proj oo)); [|eapply IH; eassumption].
  destruct (match index (popts pr) (o_name oo) with Some x => _ | None => _ end) as [id'|] eqn:G; [|eapply IH; eassumption].
  destruct (set_option eval (Some p) (S fuel) w id' _ _ _) as [w1 r1| |] eqn:T; try discriminate.
  assert (F : frame w w1) by (eapply set_option_frame; exact T). pose proof F as (FG & FP & _).
  apply IH in E as [F2 E]; [|eapply frame_no_renames; eassumption|now rewrite FP].
  split; [eapply frame_trans; eassumption|]. intros id H1 H2. rewrite E; [|assumption|now rewrite FG].
  eapply set_other; [exact T| |now apply no_renames_to]. intros ->.
  destruct (index (popts pr) (o_name oo)) as [x|] eqn:I; [now apply (H1 (o_name oo)); rewrite I|].
  destruct (Nat.eqb_spec p 0) as [->|]; [|discriminate]. now apply (H2 eq_refl (o_name oo)).
Qed.
Definition default_for (k : bytes) (id : nat) (s : bytes) : list setting :=
  match parse_config_string s with
  | Some (None, k', v) => if beqb k' k then [mkSetting id (VStr v) SDefaultOptions true] else []
  | _ => []
  end.
Lemma defaults_replay eval fuel pr k id p l : forall w w' o, no_renames w -> nth_error (projects w) p = Some pr -> only_name w pr k id ->
  nth_error (heap w) id = Some o ->
  default_options eval fuel w p None l = Done w' true ->
  exists o', nth_error (heap w') id = Some o' /\ same o o' /\ (src o', val o') = replay eval o (src o, val o) (flat_map (default_for k id) l)
    /\ (rank (src o) <= rank SDefaultOptions -> forall s, In s (flat_map (default_for k id) l) -> denote eval o (s_val s) true <> None).
Proof.
  induction l as [|s l IH]; intros w w' o NR P ON N E; cbn [default_options flat_map] in *.
  - injection E as <-. exists o. split; [assumption|]. split; [apply same_refl|]. split; [reflexivity|]. intros _ s [].
  - unfold default_for at 1 3. destruct (parse_config_string s) as [[[[sb|] k'] v]|]; [| |discriminate].
    { cbn [given orb app] in *. eapply IH; [..|exact E]; assumption. }
    cbn [given orb] in E. destruct (get_option w (Some p) k') as [id'|] eqn:G; [|discriminate].
    destruct (set_option eval (Some p) fuel w id' _ _ _) as [w1 [|]| |] eqn:T; try discriminate.
    assert (F : frame w w1) by (eapply set_option_frame; exact T). pose proof F as (FG & FP & _).
    pose proof (frame_no_renames _ _ F NR) as NR1.
    assert (P1 : nth_error (projects w1) p = Some pr) by now rewrite FP.
    assert (ON1 : only_name w1 pr k id) by (unfold only_name in *; now rewrite FG).
    unfold get_option in G. rewrite P in G. destruct ON as [I U].
    destruct (beqb_spec k' k) as [->|NK].
    + rewrite I in G. injection G as <-.
      destruct (set_self _ _ _ _ _ _ _ _ _ _ _ T N (no_renames_to _ _ _ NR)) as (o1 & N1 & S1 & X).
      destruct (IH w1 w' o1 NR1 P1 ON1 N1 E) as (o' & N' & S' & R & A). exists o'. split; [assumption|]. split; [eapply same_trans; eassumption|].
      cbn [app replay fst snd s_src s_val s_coerce]. split.
      * rewrite R, (replay_same _ _ _ S1). f_equal.
        destruct (rank SDefaultOptions <? rank (src o)); [destruct X as [-> _]; reflexivity|]. destruct X as [-> ->]. reflexivity.
      * intros L t [<-|It]; cbn [s_val].
        -- apply Nat.ltb_ge in L. rewrite L in X. destruct X as [_ ->]. discriminate.
        -- rewrite <- (denote_same _ _ _ _ _ S1). apply A; [|assumption]. apply Nat.ltb_ge in L. rewrite L in X. destruct X as [-> _]. lia.
    + rewrite <- (set_other _ _ _ id _ _ _ _ _ _ _ T) in N; [|intros ->|now apply no_renames_to].
      * destruct (IH w1 w' o NR1 P1 ON1 N E) as (o' & N' & S' & R & A). exists o'. cbn [app]. tauto.
      * apply NK. apply U. destruct (index (popts pr) k') as [x|]; [left; congruence|now right].
Qed.
Lemma defaults_ids eval fuel p sub l : forall w w' r, no_renames w -> default_options eval fuel w p sub l = Done w' r ->
  forall id, (forall s k v, In s l -> config_form s None k v -> get_option w (Some p) k <> Some id) -> nth_error (heap w') id = nth_error (heap w) id.
Proof.
  induction l as [|s l IH]; intros w w' r NR E id H; cbn [default_options] in E; [now injection E as <- _|].
  destruct (parse_config_string s) as [[[sb k] v]|] eqn:PS; [|now injection E as <- _].
  assert (H' : forall x k0 v0, In x l -> config_form x None k0 v0 -> get_option w (Some p) k0 <> Some id) by (intros x k0 v0 I; apply H; now right).
  destruct (given sub || given sb) eqn:GS.
  { apply (IH _ _ _) with (id := id) in E; [exact E|exact NR|exact H']. }
  destruct sb; [destruct sub; discriminate|].
  destruct (get_option w (Some p) k) as [id'|] eqn:G; [|now injection E as <- _].
  assert (id' <> id) as NE.
  { intros ->. apply (H s k v); [now left|now apply parse_form|assumption]. }
  destruct (set_option eval (Some p) fuel w id' _ _ _) as [w1 r1| |] eqn:T; try discriminate.
  assert (F : frame w w1) by (eapply set_option_frame; exact T).
  assert (nth_error (heap w1) id = nth_error (heap w) id) as <- by (eapply set_other; [exact T|assumption|now apply no_renames_to]).
  destruct r1; [|now injection E as <- _].
  eapply IH; [eapply frame_no_renames; eassumption|exact E|]. intros x k0 v0 I C. rewrite (frame_get _ _ _ _ F). now apply (H' x k0 v0).
Qed.

(** ** the options of targets *)
Lemma override_keeps eval fuel p l : forall w w' r d d', no_renames w -> override_options eval fuel w p l d = (Done w' r, d') ->
  no_renames w' /\ glob w' = glob w /\ projects w' = projects w /\ (forall j o, nth_error (heap w) j = Some o -> nth_error (heap w') j = Some o)
  /\ (exists e, d' = d ++ e).
Proof.
  induction l as [|s l IH]; intros w w' r d d' NR E; cbn [override_options] in E.
  { injection E as <- _ <-. repeat split; try assumption; try tauto. exists []. now rewrite app_nil_r. }
  assert (Z : (Done w false, d) = (Done w' r, d') -> no_renames w' /\ glob w' = glob w /\ projects w' = projects w /\ (forall j o, nth_error (heap w) j = Some o -> nth_error (heap w') j = Some o) /\ (exists e, d' = d ++ e)).
  { intros [= <- _ <-]. repeat split; try assumption; try tauto. exists []. now rewrite app_nil_r. }
  destruct (parse_config_string s) as [[[[sb|] k] v]|]; [now apply Z| |now apply Z].
  destruct (get_option w (Some p) k) as [id|]; [|now apply Z]. clear Z.
  destruct (nth_error (heap w) id) as [o|] eqn:No; [|discriminate].
  destruct (set_option eval (Some p) fuel _ _ _ _ _) as [w1 r1| |] eqn:T; try discriminate.
  assert (NR0 : no_renames (with_heap (heap w ++ [o]) w)).
  { intros x n I. cbn in I. apply in_app_or in I as [I|[<-|[]]]; [now apply NR|]. apply NR. eapply nth_error_In; exact No. }
  assert (F : frame (with_heap (heap w ++ [o]) w) w1) by (eapply set_option_frame; exact T). pose proof F as (FG & FP & _).
  pose proof (frame_no_renames _ _ F NR0) as NR1.
  assert (K : forall j x, nth_error (heap w) j = Some x -> nth_error (heap w1) j = Some x).
  { intros j x J. assert (j < length (heap w)) by (apply nth_error_Some; congruence).
    rewrite (set_other _ _ _ j _ _ _ _ _ _ _ T); [|lia|now apply no_renames_to]. cbn. rewrite nth_error_app1 by assumption. exact J. }
  assert (Z : (Done w1 false, d) = (Done w' r, d') -> no_renames w' /\ glob w' = glob w /\ projects w' = projects w /\ (forall j o, nth_error (heap w) j = Some o -> nth_error (heap w') j = Some o) /\ (exists e, d' = d ++ e)).
  { intros [= <- _ <-]. repeat split; try assumption; try tauto. exists []. now rewrite app_nil_r. }
  destruct r1; [|now apply Z]. destruct (given (index d (name o))); [now apply Z|].
  apply IH in E as (H1 & H2 & H3 & H4 & e & H5); [|assumption]. rewrite FG in H2. rewrite FP in H3.
  repeat split; try assumption; [intros j x J; now apply H4, K|]. eexists. rewrite H5, <- app_assoc. reflexivity.
Qed.
Lemma override_values eval fuel p l : forall w w' d d', no_renames w -> override_options eval fuel w p l d = (Done w' true, d') ->
  forall s k v id o, In s l -> config_form s None k v -> get_option w (Some p) k = Some id -> nth_error (heap w) id = Some o ->
  exists id' o', In (name o, id') d' /\ length (heap w) <= id' /\ nth_error (heap w') id' = Some o' /\ same o o' /\
    if rank SOverrideOptions <? rank (src o) then val o' = val o else denote eval o (VStr v) true = Some (val o').
Proof.
  induction l as [|s l IH]; intros w w' d d' NR E s' k' v' id' o' I; cbn [override_options] in E; [destruct I|]. intros C G' N'.
  destruct (parse_config_string s) as [[[[sb|] k] v]|] eqn:PS; try discriminate.
  destruct (get_option w (Some p) k) as [id|] eqn:G; [|discriminate].
  destruct (nth_error (heap w) id) as [o|] eqn:No; [|discriminate].
  destruct (set_option eval (Some p) fuel _ _ _ _ _) as [w1 [|]| |] eqn:T; try discriminate.
  destruct (given (index d (name o))); [discriminate|].
  assert (NR0 : no_renames (with_heap (heap w ++ [o]) w)).
  { intros x n J. cbn in J. apply in_app_or in J as [J|[<-|[]]]; [now apply NR|]. apply NR. eapply nth_error_In; exact No. }
  assert (F : frame (with_heap (heap w ++ [o]) w) w1) by (eapply set_option_frame; exact T). pose proof F as (FG & FP & _).
  pose proof (frame_no_renames _ _ F NR0) as NR1.
  assert (nth_error (heap (with_heap (heap w ++ [o]) w)) (length (heap w)) = Some o) as N0 by (cbn; rewrite nth_error_app2, Nat.sub_diag by lia; reflexivity).
  destruct (set_self _ _ _ _ _ _ _ _ _ _ _ T N0 (no_renames_to _ _ _ NR0)) as (o1 & N1 & S1 & X).
  assert (LE : length (heap w1) = S (length (heap w))).
  { assert (length (heap w) < length (heap w1)) by (apply nth_error_Some; congruence).
    destruct F as (_ & _ & F). specialize (F (S (length (heap w)))). cbn [heap with_heap] in F.
    replace (nth_error (heap w ++ [o]) (S (length (heap w)))) with (@None opt) in F by (symmetry; apply nth_error_None; rewrite app_length; cbn; lia).
    destruct (nth_error (heap w1) (S (length (heap w)))) eqn:Q; [destruct F|]. apply nth_error_None in Q. lia. }
  replace (length (heap w1) - 1) with (length (heap w)) in E by lia.
  destruct I as [<-|I].
  - apply parse_form in C. rewrite PS in C. injection C as -> ->. assert (id' = id) as -> by congruence. assert (o' = o) as -> by congruence.
    destruct (override_keeps _ _ _ _ _ _ _ _ _ NR1 E) as (_ & _ & _ & K & e & ->).
    exists (length (heap w)), o1. split; [rewrite !in_app_iff; cbn; tauto|]. split; [lia|]. split; [now apply K|]. split; [assumption|].
    destruct (rank SOverrideOptions <? rank (src o)); [destruct X as [-> _]; reflexivity|]. exact (proj2 X).
  - assert (id' < length (heap w)) by (apply nth_error_Some; congruence).
    destruct (IH _ _ _ _ NR1 E s' k' v' id' o' I C) as (i2 & o2 & A & B & C' & D').
    + rewrite (frame_get _ _ _ _ F). exact G'.
    + rewrite (set_other _ _ _ id' _ _ _ _ _ _ _ T); [|lia|now apply no_renames_to]. cbn. now rewrite nth_error_app1.
    + exists i2, o2. repeat (split; [first [assumption|lia]|]). exact D'.
Qed.

(** ** yielding options *)
Lemma set_plain eval p fuel w id v s w' r o : set_option eval p fuel w id v s false = Done w' r -> nth_error (heap w) id = Some o ->
  if rank s <? rank (src o) then w' = w /\ r = true
  else match check o v with
       | COk y => w' = change id (with_val y) (change id (with_src s) w) /\ r = true
       | _ => w' = change id (with_src s) w /\ r = false
       end.
Proof.
  destruct fuel as [|fuel]; [discriminate|]. cbn [set_option]. intros E N. rewrite N in E. destruct (rank s <? rank (src o)).
  - injection E as <- <-. now split.
  - destruct (check o v); try discriminate; injection E as <- <-; now split.
Qed.
Lemma check_conforming o po v : type po = type o -> conforms po -> check o (val po) = COk v -> v = val po.
Proof.
  intros T C K. apply check_value in K. rewrite <- T in K. unfold conforms in C. destruct (type po).
  - destruct C as (s & C). rewrite C in *. cbn in K. congruence.
  - destruct C as (s & C). rewrite C in *. cbn in K. congruence.
  - destruct C as (s & l & C & _). rewrite C in *. cbn in K. congruence.
  - destruct C as (s & C & _). rewrite C in *. cbn in K. congruence.
  - destruct C as (s & C & _). rewrite C in *. cbn in K. congruence.
  - destruct C as (s & C). rewrite C in *. cbn in K. congruence.
Qed.
Lemma otype_eqb_eq a b : otype_eqb a b = true <-> a = b.
Proof. destruct a, b; cbn; split; congruence. Qed.
Lemma yields_change w j f o po : (forall pid, get_option w (Some 0) (name o) = Some pid -> pid <> j) ->
  yields (change j f w) o po <-> yields w o po.
Proof.
  intros H. assert (G : get_option (change j f w) (Some 0) (name o) = get_option w (Some 0) (name o)) by (unfold get_option; now rewrite change_glob, change_projects).
  unfold yields. rewrite G. split; intros (Y & pid & A & B & C); (split; [assumption|]); exists pid.
  - rewrite change_other in B by (intros ->; now apply (H pid)). tauto.
  - rewrite change_other by (intros ->; now apply (H pid)). tauto.
Qed.
Lemma yield_spec eval fuel p l : forall w w', all_conform w -> NoDup (map snd l) ->
  (forall n pid, get_option w (Some 0) n = Some pid -> ~ In pid (map snd l)) ->
  set_yielding eval fuel w p l = Done w' true ->
  (forall id, ~ In id (map snd l) -> nth_error (heap w') id = nth_error (heap w) id) /\
  forall id o, In id (map snd l) -> nth_error (heap w) id = Some o ->
    exists o', nth_error (heap w') id = Some o' /\ same o o' /\
      ((forall po, yields w o po -> rank (src o) <= rank SYield -> val o' = val po) /\
       ((forall po, ~ yields w o po) -> o' = o) /\ (rank SYield < rank (src o) -> o' = o)).
Proof.
  induction l as [|[k j] l IH]; intros w w' AC ND D E; cbn [set_yielding map snd] in *.
  { injection E as <-. split; [reflexivity|]. intros id o []. }
  inversion ND as [|? ? NI ND']; subst.
  destruct (nth_error (heap w) j) as [o|] eqn:No; [|discriminate].
  (* the option stays as it is *)
  assert (STAY : set_yielding eval fuel w p l = Done w' true -> (forall po, yields w o po -> rank SYield < rank (src o)) ->
    (forall id, ~ In id (j :: map snd l) -> nth_error (heap w') id = nth_error (heap w) id) /\
    forall id o, In id (j :: map snd l) -> nth_error (heap w) id = Some o ->
    exists o', nth_error (heap w') id = Some o' /\ same o o' /\
      ((forall po, yields w o po -> rank (src o) <= rank SYield -> val o' = val po) /\
       ((forall po, ~ yields w o po) -> o' = o) /\ (rank SYield < rank (src o) -> o' = o))).
  { intros E' NY. destruct (IH w w' AC ND') as [I1 I2]; [intros n pid G I; apply (D n pid G); now right|assumption|].
    split; [intros id N; apply I1; intros I; apply N; now right|]. intros id o0 [<-|I] N0; [|now apply I2].
    assert (o0 = o) as -> by congruence. exists o. split; [rewrite I1; assumption|]. split; [apply same_refl|].
    split; [intros po Y L; specialize (NY po Y); lia|]. tauto. }
  destruct (yield o) eqn:Y; cbn [negb] in E.
  2:{ apply STAY; [assumption|]. intros po (? & _). congruence. }
  destruct (get_option w (Some 0) (name o)) as [pid|] eqn:G.
  2:{ apply STAY; [assumption|]. intros po (_ & x & ? & _). congruence. }
  destruct (nth_error (heap w) pid) as [po|] eqn:Np; [|discriminate].
  destruct (otype_eqb (type po) (type o)) eqn:T; cbn [negb] in E.
  2:{ apply STAY; [assumption|]. intros po' (_ & x & G' & N' & T'). assert (po' = po) as -> by congruence.
      apply otype_eqb_eq in T'. congruence. }
  apply otype_eqb_eq in T.
  destruct (set_option eval (Some p) fuel w j _ _ _) as [w1 [|]| |] eqn:Q; try discriminate.
  pose proof (set_plain _ _ _ _ _ _ _ _ _ _ Q No) as X. destruct (rank SYield <? rank (src o)) eqn:L.
  { destruct X as [-> _]. apply STAY; [assumption|]. intros. now apply Nat.ltb_lt in L. }
  destruct (check o (val po)) as [y| |] eqn:K; try (destruct X; discriminate). destruct X as [-> _].
  assert (pid <> j) as NP by (intros ->; apply (D _ _ G); now left).
  apply (check_conforming _ _ _ T) in K as ->; [|eapply conform_nth; eassumption].
  set (w1 := change j (with_val (val po)) (change j (with_src SYield) w)) in *.
  assert (F : frame w w1) by (eapply frame_trans; apply frame_change; intros; [apply same_src|apply same_val]).
  assert (O1 : nth_error (heap w1) j = Some (with_val (val po) (with_src SYield o))) by (apply change_same, change_same, No).
  assert (O2 : forall i, i <> j -> nth_error (heap w1) i = nth_error (heap w) i) by (intros i NE; unfold w1; rewrite !change_other by congruence; reflexivity).
  assert (AC1 : all_conform w1).
  { unfold all_conform. apply Forall_forall. intros x I. apply In_nth_error in I as (i & I). destruct (Nat.eq_dec i j) as [->|NE].
    - assert (x = with_val (val po) (with_src SYield o)) as -> by congruence.
      pose proof (set_option_frame _ _ _ _ _ _ _ _ _ _ Q) as _. clear STAY IH.
      assert (check o (val po) = COk (val po)) as K.
      { pose proof (set_plain _ _ _ _ _ _ _ _ _ _ Q No) as X. rewrite L in X. destruct (check o (val po)) as [y| |] eqn:K; try (destruct X; discriminate).
        now apply (check_conforming _ _ _ T) in K as ->; [|eapply conform_nth; eassumption]. }
      eapply check_conforms; [|exact K|apply same_src]. apply conform_disabler. eapply conform_nth; eassumption.
    - rewrite O2 in I by assumption. eapply conform_nth; eassumption. }
  destruct (IH w1 w' AC1 ND') as [I1 I2]; [intros n x G' I; apply (D n x); [now rewrite <- (frame_get _ _ _ _ F)|now right]|assumption|].
  assert (YE : forall o0 po0, yields w1 o0 po0 <-> yields w o0 po0).
  { intros o0 po0. unfold w1. rewrite !yields_change; [reflexivity|..].
    - intros x Gx ->. apply (D _ _ Gx). now left.
    - intros x Gx ->. rewrite (frame_get w) in Gx by (apply frame_change; intros; apply same_src). apply (D _ _ Gx). now left. }
  split.
  - intros id NIn. rewrite I1 by (intros I; apply NIn; now right). apply O2. intros ->. apply NIn. now left.
  - intros id o0 I N0. destruct (Nat.eq_dec id j) as [->|NE].
    + assert (o0 = o) as -> by congruence. exists (with_val (val po) (with_src SYield o)). split; [rewrite I1; assumption|]. split; [repeat split|].
      split; [|split].
      * intros po' (_ & x & G' & N' & _) _. cbn. congruence.
      * intros H. exfalso. apply (H po). split; [assumption|]. exists pid. tauto.
      * intros H. apply Nat.ltb_ge in L. lia.
    + destruct I as [->|I]; [contradiction|]. destruct (I2 id o0 I) as (o' & A & B & C1 & C2 & C3); [now rewrite O2|].
      exists o'. split; [assumption|]. split; [assumption|]. split; [|split; [|assumption]].
      * intros po' H. apply C1. now apply YE.
      * intros H. apply C2. intros po' H'. apply (H po'). now apply YE.
Qed.

(** ** renamed options *)
Lemma rename_inv eval p fuel w id s sc w' o n id2 : set_option eval p (S fuel) w id (VStr s) sc true = Done w' true -> nth_error (heap w) id = Some o ->
  rank (src o) <= rank sc -> depr o = Some (DRename n) -> get_option w p n = Some id2 ->
  exists w1 r y, set_option eval p fuel (change id (with_src sc) w) id2 (VStr s) SDeprecatedRename true = Done w1 r /\ w' = change id (with_val y) w1.
Proof.
  intros E N L D G. cbn [set_option] in E. rewrite N in E. apply Nat.ltb_ge in L. rewrite L in E.
  unfold coerce_option_override in E. change (depr (with_src sc o)) with (depr o) in E. rewrite D in E.
  assert (G' : get_option (change id (with_src sc) w) p n = Some id2) by (rewrite (frame_get w); [assumption|apply frame_change; intros; apply same_src]).
  rewrite G' in E. destruct (early_array eval (type (with_src sc o)) s) as [res|]; [|discriminate].
  destruct (set_option eval p fuel (change id (with_src sc) w) id2 (VStr s) SDeprecatedRename true) as [w1 r| |]; try discriminate.
  exists w1, r.
  assert (X : exists v, match check o v with COk v0 => Done (change id (with_val v0) w1) true | CErr => Done w1 false | CAbort => Abort end = Done w' true).
  { destruct res as [[t| | | | | |]|]; try (eexists; exact E); destruct (late _ _ _); try discriminate; eexists; exact E. }
  destruct X as (v & X). destruct (check o v) as [y| |]; try discriminate. exists y. split; [reflexivity|]. congruence.
Qed.
Lemma set_norename eval p fuel w id v s c w' r o : set_option eval p fuel w id v s c = Done w' r -> nth_error (heap w) id = Some o ->
  (forall n, depr o <> Some (DRename n)) ->
  exists o', nth_error (heap w') id = Some o' /\ same o o' /\ (forall j, j <> id -> nth_error (heap w') j = nth_error (heap w) j) /\
    if rank s <? rank (src o) then o' = o /\ r = true
    else src o' = s /\ if r then denote eval o v c = Some (val o') else val o' = val o.
Proof.
  destruct fuel as [|fuel]; [discriminate|]. intros E N NR.
  apply (set_option_inv _ _ _ _ _ _ _ _ _ _ o) in E; [|assumption].
  destruct E as [(L & -> & ->)|(L & w1 & X & Y)].
  - exists o. split; [assumption|]. split; [apply same_refl|]. split; [reflexivity|]. apply Nat.ltb_lt in L. rewrite L. now split.
  - apply Nat.ltb_ge in L. rewrite L.
    destruct X as [->|[(n & id2 & r2 & t & Dn & Gn & T)|(n & l & Dn & _)]]; [|now apply NR in Dn..].
    destruct Y as [(-> & ->)|(-> & x & y & R & K & ->)].
    + exists (with_src s o). split; [now apply change_same|]. split; [apply same_src|]. split; [intros; now apply change_other; congruence|]. now split.
    + exists (with_val y (with_src s o)). split; [now apply change_same, change_same|]. split; [repeat split|].
      split; [intros; rewrite !change_other by congruence; reflexivity|]. split; [reflexivity|].
      cbn [val with_val]. unfold denote. destruct c.
      * destruct R as (t & -> & R). rewrite R, K. reflexivity.
      * subst x. rewrite K. reflexivity.
Qed.
(** with arrays only, setting an option always comes to an end *)
Lemma set_total eval p fuel w id s sc o : (forall t v, eval t = Some v -> exists l, v = VArr l) -> nth_error (heap w) id = Some o ->
  (forall n, depr o <> Some (DRename n)) -> conforms o -> exists w' r, set_option eval p (S fuel) w id (VStr s) sc true = Done w' r.
Proof.
  intros EV N NR C. cbn [set_option]. rewrite N. destruct (rank sc <? rank (src o)); [eauto|].
  set (w0 := change id (with_src sc) w).
  assert (X : (exists v, coerce_option_override eval p (fun w id t => set_option eval p fuel w id (VStr t) SDeprecatedRename true) w0 (with_src sc o) (VStr s) = KOk w0 v
              /\ v <> VDisabler) \/ coerce_option_override eval p (fun w id t => set_option eval p fuel w id (VStr t) SDeprecatedRename true) w0 (with_src sc o) (VStr s) = KErr w0).
  { assert (LD : forall t x, late (type o) t None = Some x -> x <> VDisabler) by (intros t x Lx; eapply late_disabler; [exact Lx|discriminate]).
    unfold coerce_option_override. change (depr (with_src sc o)) with (depr o). change (type (with_src sc o)) with (type o).
    destruct (early_array eval (type o) s) as [res|] eqn:A; [|now right].
    assert (RES : type o <> OpArray /\ res = None \/ type o = OpArray /\ exists l, res = Some (VArr l)).
    { destruct (type o); cbn [early_array] in A; try (left; split; [discriminate|congruence]). right. split; [reflexivity|].
      apply early_elements in A as (v & -> & [(_ & ->)|[(r & _ & H)|(_ & _ & q & -> & _)]]); eauto. apply EV in H as (l & ->). eauto. }
    destruct (depr o) as [[b|n|d]|].
    - destruct RES as [[_ ->]|[_ (l & ->)]]; [|left; eexists; split; [reflexivity|discriminate]].
      destruct (late (type o) s None) eqn:Lx; [left; eauto|now right].
    - exfalso. now apply (NR n).
    - destruct RES as [[T ->]|[T (l & ->)]].
      + destruct (deprecated_values (type o) d s None) as [res|] eqn:V; [|now apply deprecated_text_total in V].
        apply deprecated_text in V as [(n & _ & ->)|[_ ->]]; [| |assumption].
        * destruct (late (type o) n (Some (VStr n))) eqn:Lx; [|now right]. left. eexists. split; [reflexivity|].
          eapply late_disabler; [exact Lx|discriminate].
        * destruct (late (type o) s None) eqn:Lx; [left; eauto|now right].
      + rewrite T. assert (exists b, deprecated_values OpArray d s (Some (VArr l)) = Some (Some (VArr b))) as (b & ->).
        { clear. revert l. induction d as [|[old new] d IH]; intros l; cbn [deprecated_values]; eauto. }
        left. eexists. split; [reflexivity|discriminate].
    - destruct RES as [[_ ->]|[T (l & ->)]].
      + destruct (late (type o) s None) eqn:Lx; [left; eauto|now right].
      + rewrite T. cbn [late]. left. eexists. split; [reflexivity|discriminate]. }
  destruct X as [(v & -> & ND)| ->]; [|eauto].
  assert (check o v <> CAbort) as NA.
  { unfold check. unfold conforms in C. destruct (typecheck_opt (type o) v) as [x|] eqn:T; [|discriminate].
    apply typecheck_inv in T; [|assumption]. destruct (type o).
    - discriminate.
    - discriminate.
    - destruct C as (? & l & _ & -> & _). destruct (array_in l x); discriminate.
    - destruct T as (n & -> & _). destruct (_ || _); discriminate.
    - destruct T as (l & -> & _). destruct (choices o); [|discriminate]. destruct (forallb _ _); discriminate.
    - discriminate. }
  destruct (check o v); [eauto..|congruence].
Qed.
