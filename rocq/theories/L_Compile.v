(** Lemmas about the languages of files and the names of objects. *)
From Coq Require Import Lia.
From Verif Require Import Base S_Path M_Path L_Path L_Path2 L_Path3 L_Custom M_Escape S_Escape M_Toolchain M_Backend S_Backend L_Places L_Backend M_Compile S_Compile.
Local Arguments B _ : simpl never.

(** ** Languages *)
Lemma lang_eqb_spec a b : reflect (a = b) (lang_eqb a b).
Proof. destruct a, b; cbn; constructor; congruence. Qed.
Lemma last_dot_spec s e : last_dot s = Some e <-> exists m, s = m ++ "."%char :: e /\ ~ In "."%char e.
Proof.
  revert e. induction s as [|c r IH]; intros e; cbn [last_dot].
  - split; [discriminate|]. intros (m & E & _). destruct m; discriminate.
  - assert (K : forall m, c :: r = m ++ "."%char :: e -> ~ In "."%char e -> (exists m', r = m' ++ "."%char :: e /\ ~ In "."%char e) \/ (c = "."%char /\ r = e)).
    { intros m E N. destruct m as [|c' m]; injection E as -> E; [now right|]. left. exists m. auto. }
    destruct (last_dot r) as [e'|] eqn:L.
    + destruct (proj1 (IH e') eq_refl) as (m0 & E0 & N0). split.
      * intros [= <-]. exists (c :: m0). subst r. auto.
      * intros (m & E & N). destruct (K m E N) as [H|[_ ->]]; [symmetry; apply IH in H; congruence|].
        exfalso. apply N. rewrite E0, in_app_iff. right. now left.
    + destruct (ceqb_spec c ".") as [->|Nc].
      * split.
        -- intros [= <-]. exists []. split; [reflexivity|]. intros Hi. clear -L Hi. induction r as [|x r IHr]; [contradiction|]. cbn [last_dot] in L.
           destruct (last_dot r); [discriminate|]. destruct (ceqb_spec x "."); [discriminate|]. destruct Hi as [Hi|Hi]; [congruence|auto].
        -- intros (m & E & N). destruct (K m E N) as [H|[_ ->]]; [|reflexivity]. apply IH in H. congruence.
      * split; [discriminate|]. intros (m & E & N). destruct (K m E N) as [H|[H _]]; [|congruence]. apply IH in H. congruence.
Qed.
Lemma find_ext_spec e l : find_ext e lang_exts = Some l <-> In ("."%char :: e, l) endings.
Proof.
  split.
  - intros H. unfold lang_exts in H. cbn [find_ext existsb] in H.
    repeat (match type of H with context [beqb e ?x] => destruct (beqb_spec e x) as [->|?] in H end; [cbn [orb] in H; injection H as <-; vm_compute; intuition|cbn [orb] in H]).
    discriminate.
  - intros H. unfold endings in H. cbn [In] in H.
    repeat (destruct H as [H|H]; [injection H as <- <-; vm_compute; reflexivity|]). contradiction.
Qed.
Lemma ending_dot e l : In (e, l) endings -> exists r, e = "."%char :: r /\ ~ In "."%char r.
Proof.
  intros H. unfold endings in H. cbn [In] in H.
  repeat (destruct H as [H|H]; [injection H as <- <-; eexists; split; [reflexivity|vm_compute; intuition discriminate]|]). contradiction.
Qed.
Lemma language_of_spec p l : language_of p = Some l <-> in_language p l.
Proof.
  unfold language_of, in_language. split.
  - destruct (last_dot p) as [e|] eqn:L; [|discriminate]. apply last_dot_spec in L as (m & -> & N). intros H.
    exists m, ("."%char :: e). split; [now apply find_ext_spec|reflexivity].
  - intros (m & e & Hi & ->). destruct (ending_dot _ _ Hi) as (r & -> & N).
    assert (last_dot (m ++ "."%char :: r) = Some r) as -> by (apply last_dot_spec; now exists m). now apply find_ext_spec.
Qed.
Lemma geti_spec {A} (d : list (lang * A)) l x : NoDup (map fst d) -> In (l, x) d -> geti d l = Some x.
Proof.
  induction d as [|[g y] d IH]; cbn [geti map fst]; [contradiction|]. intros N [H|H].
  - injection H as -> ->. destruct (lang_eqb_spec l l); congruence.
  - inversion N as [|? ? N1 N2]; subst. destruct (lang_eqb_spec l g) as [->|_]; [|auto]. exfalso. apply N1. now apply (in_map fst) in H.
Qed.
Lemma geti_in {A} (d : list (lang * A)) l x : geti d l = Some x -> In (l, x) d.
Proof.
  induction d as [|[g y] d IH]; cbn [geti]; [discriminate|]. destruct (lang_eqb_spec l g) as [->|_]; [intros [= ->]; now left|]. right. auto.
Qed.
Lemma geti_key {A} (d : list (lang * A)) l : In l (map fst d) -> exists x, geti d l = Some x.
Proof.
  induction d as [|[g y] d IH]; cbn [geti map fst In]; [contradiction|]. destruct (lang_eqb_spec l g) as [->|N]; [eauto|].
  intros [E|H]; [congruence|auto].
Qed.
Lemma geti_none {A} (d : list (lang * A)) l : geti d l = None <-> ~ In l (map fst d).
Proof.
  split.
  - intros E H. destruct (geti_key d l H) as [x Ex]. congruence.
  - intros H. destruct (geti d l) as [x|] eqn:E; [|reflexivity]. exfalso. apply H. apply geti_in in E. now apply (in_map fst) in E.
Qed.

(** ** Paths *)
Lemma clean_noup p : clean p -> Forall noup (comps p).
Proof. intros H. apply Forall_forall. intros c Hc. unfold noup, is_up. destruct (beqb_spec c (B "..")) as [->|]; [contradiction|reflexivity]. Qed.
Lemma render_snoc abs (l : list bytes) x s : render abs (l ++ [x]) ++ s = render abs (l ++ [x ++ s]).
Proof.
  unfold render. change (B "/") with [SEP]. assert (N : forall y : bytes, l ++ [y] <> []) by (intros y; destruct l; discriminate).
  destruct abs; [rewrite !joinb_snoc, app_assoc; reflexivity|].
  destruct (l ++ [x]) eqn:E; [now apply N in E|]. rewrite <- E. clear E.
  destruct (l ++ [x ++ s]) eqn:E; [now apply N in E|]. rewrite <- E. rewrite !joinb_snoc, app_assoc. reflexivity.
Qed.
Lemma good_suffix x s : good x -> ~ In SEP s -> 2 <= length s -> good (x ++ s).
Proof.
  intros G N L. pose proof (good_nonempty _ G) as Ne. destruct G as [G1 G2]. split.
  - unfold moves. destruct x as [|a x]; [congruence|]. destruct s as [|b [|c s]]; cbn in L; try lia.
    apply andb_true_intro. split; [reflexivity|]. apply negb_true_iff, beqb_neq. change (B ".") with ["."%char]. intros E. apply (f_equal (@length _)) in E. cbn in E. rewrite app_length in E. cbn in E. lia.
  - rewrite in_app_iff. tauto.
Qed.
Lemma noup_suffix x s : good x -> 2 <= length s -> noup (x ++ s).
Proof.
  intros G L. pose proof (good_nonempty _ G) as Ne. unfold noup, is_up. apply beqb_neq. change (B "..") with ["."%char; "."%char]. intros E. apply (f_equal (@length _)) in E. rewrite app_length in E.
  destruct x; [congruence|]. cbn in E. lia.
Qed.
(** the path below a directory, with something added to its last name *)
Lemma rel_suffix root p (r : list bytes) s : is_abs root = true -> comps root <> [] -> is_abs p = true -> Forall noup (comps p) -> r <> [] ->
  comps p = comps root ++ r -> ~ In SEP s -> 2 <= length s ->
  rel root (render true (comps p) ++ s) = render false r ++ s /\ comps (render true (comps p) ++ s) = comps root ++ removelast r ++ [last r [] ++ s]
  /\ Forall noup (comps (render true (comps p) ++ s)) /\ is_abs (render true (comps p) ++ s) = true.
Proof.
  intros Hr Nr Hp Nu Ne E Ns Ls. pose proof (comps_good p) as Gp.
  destruct (snoc_case r) as [->|(l & z & ->)]; [congruence|].
  rewrite removelast_app1, last_last. rewrite E in *. rewrite app_assoc in *. rewrite (render_snoc true), (render_snoc false).
  apply Forall_app in Gp as [G1 G2]. apply Forall_app in Nu as [N1 N2]. inversion G2 as [|? ? Gz _]; subst.
  assert (G : Forall good ((comps root ++ l) ++ [z ++ s])) by (apply Forall_app; split; [exact G1|repeat constructor; now apply good_suffix]).
  rewrite comps_render, is_abs_render by exact G.
  assert (N : Forall noup ((comps root ++ l) ++ [z ++ s])) by (apply Forall_app; split; [exact N1|repeat constructor; now apply noup_suffix]).
  repeat apply conj; auto. unfold rel. rewrite (relative_below root _ (l ++ [z ++ s])); auto.
  - destruct l; discriminate.
  - rewrite comps_render by exact G. now rewrite <- app_assoc.
  - rewrite comps_render by exact G. exact N.
  - now rewrite <- app_assoc.
Qed.

(** ** Objects *)
Lemma below_spec d p r : below d p = Some r <-> p = d ++ r.
Proof.
  revert p. induction d as [|x d IH]; intros p; cbn [below app].
  - split; [now intros [= ->]|now intros ->].
  - destruct p as [|y p]; [split; discriminate|]. destruct (beqb_spec x y) as [->|N].
    + rewrite IH. split; [now intros ->|now intros [= ->]].
    + split; [discriminate|]. now intros [= -> _].
Qed.
Lemma below_none d p : below d p = None <-> ~ prefix_of d p.
Proof.
  split.
  - intros E [r ->]. rewrite (proj2 (below_spec d (d ++ r) r)) in E by reflexivity. discriminate.
  - intros H. destruct (below d p) as [r|] eqn:E; [|reflexivity]. exfalso. apply H. apply below_spec in E. now exists r.
Qed.
Lemma subpath_below d p : is_abs d = true -> is_abs p = true ->
  path_is_subpath d p = Some (match below (comps d) (comps p) with Some _ => true | None => false end).
Proof.
  intros Hd Hp. assert (N1 : d <> []) by (intros ->; discriminate). assert (N2 : p <> []) by (intros ->; discriminate).
  destruct (path_is_subpath_spec d p N1 N2 (or_introl Hd)) as (r & -> & Hr). f_equal. destruct (below (comps d) (comps p)) as [x|] eqn:E.
  - apply Hr. split; [congruence|]. exists x. now apply below_spec.
  - apply below_none in E. destruct r; [|reflexivity]. exfalso. apply E. now apply Hr.
Qed.
(** the text after the directory *)
Definition within_text (w : wk) (t : btarget) (src : bytes) : option bytes :=
  do base <- object_base w t src;
  match base with
  | Some b => path_relative_to b src
  | None => do p <- path_copy src; Some (map (fun c => if ceqb c "/" then "_"%char else c) p)
  end.
Lemma good_flat p : p <> [] -> In SEP p -> good (map (fun c => if ceqb c "/" then "_"%char else c) p).
Proof.
  intros Ne Hi. set (f := fun c : ascii => if ceqb c "/" then "_"%char else c).
  assert (Hu : In "_"%char (map f p)). { apply in_map_iff. exists SEP. split; [reflexivity|exact Hi]. }
  split.
  - unfold moves. apply andb_true_intro. split; apply negb_true_iff, beqb_neq; intros E; rewrite E in Hu; vm_compute in Hu; intuition discriminate.
  - intros H. apply in_map_iff in H as (c & E & _). unfold f in E. revert E. destruct (ceqb_spec c "/") as [_|N]; [discriminate|]. intros E. now apply N.
Qed.
Lemma flat_noup p : In SEP p -> noup (map (fun c => if ceqb c "/" then "_"%char else c) p).
Proof.
  intros Hi. set (f := fun c : ascii => if ceqb c "/" then "_"%char else c).
  assert (Hu : In "_"%char (map f p)). { apply in_map_iff. exists SEP. split; [reflexivity|exact Hi]. }
  unfold noup, is_up. apply beqb_neq. intros E. rewrite E in Hu. vm_compute in Hu. intuition discriminate.
Qed.
Lemma within_ok w t src : Forall (fun d => is_abs d = true /\ clean d /\ comps d <> []) (seen_from w t) ->
  is_abs src = true -> clean src -> ~ In (comps src) (map comps (seen_from w t)) ->
  within w t src <> [] /\ Forall good (within w t src) /\ Forall noup (within w t src)
  /\ length (within w t src) <= S (length (comps src))
  /\ (forall s c, In s (within w t src) -> In c s -> In c src \/ c = "_"%char)
  /\ within_text w t src = Some (render false (within w t src)).
Proof.
  intros Hd Ha Hc Hn. pose proof (clean_noup _ Hc) as Nu. pose proof (comps_good src) as Gs.
  assert (Ns : src <> []) by (intros ->; discriminate).
  unfold within_text, object_base, within, seen_from in *. cbn [map first_below In] in *.
  inversion Hd as [|? ? (A1 & C1 & D1) Hd1]; subst. inversion Hd1 as [|? ? (A2 & C2 & D2) Hd2]; subst.
  inversion Hd2 as [|? ? (A3 & C3 & D3) Hd3]; subst. inversion Hd3 as [|? ? (A4 & C4 & D4) _]; subst.
  rewrite !subpath_below by assumption. cbn [option_map].
  assert (K : forall d r, is_abs d = true -> comps d <> [] -> comps d <> comps src -> below (comps d) (comps src) = Some r ->
     r <> [] /\ Forall good r /\ Forall noup r /\ length r <= S (length (comps src)) /\ (forall s c, In s r -> In c s -> In c src \/ c = "_"%char)
     /\ path_relative_to d src = Some (render false r)).
  { intros d r Ad Nd Nq E. apply below_spec in E. rewrite E in Nu, Gs. apply Forall_app in Nu as [_ Nu]. apply Forall_app in Gs as [_ Gs].
    assert (Nr : r <> []) by (intros ->; rewrite app_nil_r in E; congruence). repeat apply conj; auto.
    - rewrite E, app_length. lia.
    - intros s c Hs Hcc. left. assert (Hin : In s (comps src)) by (rewrite E, in_app_iff; auto). eapply in_comps; eauto.
    - apply relative_below; auto. rewrite E. apply Forall_app. split; [|exact Nu]. pose proof (clean_noup _ Hc) as X. rewrite E in X. now apply Forall_app in X. }
  destruct (below (comps (b_private t)) (comps src)) as [r|] eqn:E1.
  { cbv iota. apply K; auto; intros X; apply Hn; auto. }
  destruct (below (comps (b_dir t)) (comps src)) as [r|] eqn:E2.
  { cbv iota. apply K; auto; intros X; apply Hn; auto. }
  destruct (below (comps (b_cwd t)) (comps src)) as [r|] eqn:E3.
  { cbv iota. apply K; auto; intros X; apply Hn; auto. }
  destruct (below (comps (wk_source_root w)) (comps src)) as [r|] eqn:E4.
  { cbv iota. apply K; auto; intros X; apply Hn; auto. }
  cbv iota. rewrite path_copy_nonempty by exact Ns. rewrite Ha. cbv beta iota.
  set (p := render true (comps src)). assert (Hi : In SEP p) by (left; reflexivity).
  repeat apply conj.
  - discriminate.
  - constructor; [apply good_flat; [discriminate|exact Hi]|constructor].
  - constructor; [now apply flat_noup|constructor].
  - cbn. lia.
  - intros s c [<-|[]] Hcc. apply in_map_iff in Hcc as (c' & E & Hin). revert E. destruct (ceqb_spec c' "/") as [_|N]; [intros <-; now right|]. intros E. left. subst c'.
    unfold p, render in Hin. destruct Hin as [<-|Hin]; [now destruct N|]. 
    destruct (in_joinb c _ Hin) as [->|(x & Hx & Hc')]; [now destruct N|eapply in_comps; eauto].
  - reflexivity.
Qed.

Lemma app_last {A} (a r : list A) d x : r <> [] -> removelast (a ++ r) ++ [x (last (a ++ r) d)] = a ++ removelast r ++ [x (last r d)].
Proof.
  intros Ne. destruct (snoc_case r) as [->|(l & z & ->)]; [congruence|]. now rewrite app_assoc, !removelast_app1, !last_last, app_assoc.
Qed.
Lemma object_suffix : ~ In SEP (B ".o") /\ 2 <= length (B ".o").
Proof. split; [vm_compute; intuition discriminate|vm_compute; repeat constructor]. Qed.
Lemma object_comps w t src : placed w t src ->
  comps (object_file w t src) = comps (b_private t) ++ removelast (within w t src) ++ [last (within w t src) [] ++ B ".o"]
  /\ Forall noup (comps (object_file w t src)) /\ is_abs (object_file w t src) = true.
Proof.
  intros [_ _ Hd (Ha & Hc & _) Hn]. destruct (within_ok w t src Hd Ha Hc Hn) as (W1 & W2 & W3 & _). destruct object_suffix as [S1 S2].
  inversion Hd as [|? ? (A1 & C1 & D1) _]; subst. pose proof (comps_good (b_private t)) as Gp. pose proof (clean_noup _ C1) as Np.
  set (p := render true (comps (b_private t) ++ within w t src)).
  assert (G : Forall good (comps (b_private t) ++ within w t src)) by (apply Forall_app; auto).
  assert (Ep : comps p = comps (b_private t) ++ within w t src) by (now apply comps_render).
  destruct (rel_suffix (b_private t) p (within w t src) (B ".o")) as (_ & K1 & K2 & K3); auto.
  - rewrite Ep. apply Forall_app; auto.
  - unfold object_file. rewrite Ep in *. auto.
Qed.
Lemma object_path_ok w cs t src : placed w t src -> Forall (fun x => unix_like (k_type (snd x))) cs ->
  object_path w cs t true src = Some (rel (wk_build_root w) (object_file w t src))
  /\ object_path w cs t false src = Some (object_file w t src).
Proof.
  intros Hp Hu. pose proof Hp as [(Hr & Nr) (_ & (x & l & Hx)) Hd (Ha & Hc & _) Hn]. destruct (within_ok w t src Hd Ha Hc Hn) as (W1 & W2 & W3 & _ & _ & W6). destruct object_suffix as [S1 S2].
  inversion Hd as [|? ? (A1 & C1 & D1) _]; subst. pose proof (comps_good (b_private t)) as Gp. pose proof (clean_noup _ C1) as Np.
  assert (Np1 : b_private t <> []) by (intros E; rewrite E in A1; discriminate).
  assert (Ext : forall res, (match language_of res with Some l => match geti cs l with Some k => object_ext (k_type k) | None => B ".o" end | None => B ".o" end) = B ".o").
  { intros res. destruct (language_of res) as [g|]; [|reflexivity]. destruct (geti cs g) as [k|] eqn:E; [|reflexivity].
    apply geti_in in E. rewrite Forall_forall in Hu. specialize (Hu _ E). cbn in Hu. unfold unix_like in Hu. cbn [In] in Hu.
    repeat (destruct Hu as [Hu|Hu]; [rewrite <- Hu; reflexivity|]). contradiction. }
  assert (Gx : Forall good (x :: l)) by (rewrite Hx in Gp; now apply Forall_app in Gp).
  set (q := x :: l) in *. assert (Nq : q <> []) by discriminate.
  unfold object_path. unfold within_text in W6. destruct (object_base w t src) as [base|]; [|discriminate]. cbv beta iota in W6 |- *. rewrite W6. clear W6.
  assert (Gw : render false (within w t src) <> []) by (now apply render_nonempty).
  split.
  - rewrite (relative_below (wk_build_root w) (b_private t) q) by auto. cbv beta iota.
    rewrite path_join_rel; [|now apply render_nonempty|exact Gw|now apply is_abs_render].
    cbv beta iota. rewrite Ext. f_equal. rewrite is_abs_render, !comps_render by assumption.
    unfold object_file. set (p := render true (comps (b_private t) ++ within w t src)).
    assert (G : Forall good (comps (b_private t) ++ within w t src)) by (apply Forall_app; auto).
    assert (Ep : comps p = comps (b_private t) ++ within w t src) by (now apply comps_render).
    destruct (rel_suffix (wk_build_root w) p (q ++ within w t src) (B ".o")) as (K1 & _); auto.
    + rewrite Ep. apply Forall_app; auto.
    + discriminate.
    + rewrite Ep, Hx. now rewrite <- app_assoc.
    + rewrite Ep in K1. fold p in K1. now rewrite K1.
  - rewrite path_join_rel; [|exact Np1|exact Gw|now apply is_abs_render].
    rewrite Ext. rewrite A1, comps_render by assumption. reflexivity.
Qed.
Lemma object_is_file w t src : placed w t src -> length (comps (b_private t)) + length (comps src) <= 58 -> a_file (object_file w t src).
Proof.
  intros Hp L. destruct (object_comps w t src Hp) as (Ec & Nu & Ha). pose proof Hp as [_ (Hw & _) Hd (Ha' & Hc & Hws) Hn].
  destruct (within_ok w t src Hd Ha' Hc Hn) as (W1 & W2 & W3 & W4 & W5 & _).
  assert (Lr : length (removelast (within w t src)) <= length (comps src)).
  { destruct (snoc_case (within w t src)) as [E|(a & z & E)]; [congruence|]. rewrite E in *. rewrite removelast_app1, app_length in *. cbn in W4. lia. }
  repeat apply conj; auto.
  - unfold location, walk. rewrite fold_walk_noup by exact Nu. cbn [snd app]. rewrite Ec. intros E. apply (f_equal (@length _)) in E. rewrite !app_length in E. cbn in E. lia.
  - rewrite Ec, !app_length. cbn. lia.
  - intros c Hi. unfold object_file in Hi. apply in_app_or in Hi as [Hi|Hi].
    + destruct (Hi) as [<-|Hi']; [repeat split; discriminate|]. destruct (in_joinb c _ Hi') as [->|(s & Hs & Hcs)]; [repeat split; discriminate|].
      apply in_app_or in Hs as [Hs|Hs]; [apply Hw; eapply in_comps; eauto|].
      destruct (W5 s c Hs Hcs) as [X| ->]; [now apply Hws|repeat split; discriminate].
    + vm_compute in Hi. destruct Hi as [<-|[<-|[]]]; repeat split; discriminate.
Qed.
(** the name under which dependencies are collected *)
Lemma order_ok w t : is_abs (wk_build_root w) = true -> comps (wk_build_root w) <> [] -> is_abs (b_path t) = true -> clean (b_path t) ->
  strictly_below (wk_build_root w) (b_path t) -> rel (wk_build_root w) (order_file t) = rel (wk_build_root w) (b_path t) ++ B "-order_deps"
  /\ (a_file (b_path t) -> a_file (order_file t)).
Proof.
  intros Hr Nr Hp Hc (x & l & E). pose proof (clean_noup _ Hc) as Nu.
  assert (Ns : ~ In SEP (B "-order_deps")) by (vm_compute; intuition discriminate). assert (Ls : 2 <= length (B "-order_deps")) by (vm_compute; repeat constructor).
  destruct (rel_suffix (wk_build_root w) (b_path t) (x :: l) (B "-order_deps")) as (K1 & K2 & K3 & K4); auto; [discriminate|].
  split.
  - unfold order_file. rewrite K1. f_equal. unfold rel. rewrite (relative_below _ _ (x :: l)); auto. discriminate.
  - intros (_ & _ & L & W). unfold order_file. repeat apply conj; auto.
    + unfold location, walk. rewrite fold_walk_noup by exact K3. cbn [snd app]. rewrite K2. intros X. apply (f_equal (@length _)) in X. rewrite !app_length in X. cbn in X. lia.
    + rewrite K2. rewrite E in L. rewrite !app_length in *. cbn [length] in *.
      enough (length (removelast (x :: l)) = length l) by lia. destruct (snoc_case (x :: l)) as [Y|(a & z & Y)]; [discriminate|]. rewrite Y, removelast_app1.
      apply (f_equal (@length _)) in Y. rewrite app_length in Y. cbn in Y. lia.
    + intros c Hi. apply in_app_or in Hi as [Hi|Hi].
      * destruct Hi as [<-|Hi']; [repeat split; discriminate|]. destruct (in_joinb c _ Hi') as [->|(s & Hs & Hcs)]; [repeat split; discriminate|].
        apply W. eapply in_comps; eauto.
      * vm_compute in Hi. repeat (destruct Hi as [<-|Hi]; [repeat split; discriminate|]). contradiction.
Qed.
