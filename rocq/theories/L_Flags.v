(** Lemmas about the arguments of compilers and linkers. *)
From Coq Require Import Lia.
From Verif Require Import Base M_Path S_Path L_Path L_Path2 L_Path3 M_Escape M_Backend S_Backend L_Places M_Compile S_Compile L_Compile L_Custom M_Toolchain S_Toolchain M_Link M_Flags S_Flags L_Toolchain.
Local Arguments B _ : simpl never.

(** ** Lists without repetitions *)
Section Once.
Context {A : Type} (dec : forall x y : A, {x = y} + {x <> y}) (eqb : A -> A -> bool) (eqb_ok : forall x y, eqb x y = true <-> x = y).
Lemma remove_comm x y (l : list A) : remove dec x (remove dec y l) = remove dec y (remove dec x l).
Proof.
  induction l as [|z l IH]; cbn [remove]; [reflexivity|].
  destruct (dec y z) as [->|Ny]; destruct (dec x z) as [->|Nx]; cbn [remove].
  - reflexivity.
  - destruct (dec z z); [auto|congruence].
  - destruct (dec z z); [auto|congruence].
  - destruct (dec x z); [congruence|]. destruct (dec y z); [congruence|]. now rewrite IH.
Qed.
Definition without (acc l : list A) : list A := fold_left (fun l x => remove dec x l) acc l.
Lemma without_cons acc x l : ~ In x acc -> without acc (x :: l) = x :: without acc l.
Proof.
  unfold without. revert l. induction acc as [|y acc IH]; intros l N; cbn [fold_left]; [reflexivity|]. cbn [remove].
  destruct (dec y x) as [->|_]; [elim N; now left|]. apply IH. intros H. apply N. now right.
Qed.
Lemma without_nil acc : without acc [] = [].
Proof. induction acc; cbn; auto. Qed.
Lemma without_remove acc x l : without acc (remove dec x l) = remove dec x (without acc l).
Proof. unfold without. revert l. induction acc as [|y acc IH]; intros l; cbn [fold_left]; [reflexivity|]. now rewrite remove_comm, IH. Qed.
Lemma without_skip acc x l : In x acc -> without acc (x :: l) = without acc l.
Proof.
  unfold without. revert l. induction acc as [|y acc IH]; intros l H; [contradiction|]. destruct H as [->|H]; cbn [fold_left].
  - cbn [remove]. destruct (dec x x); [reflexivity|congruence].
  - cbn [remove]. destruct (dec y x); [reflexivity|]. now apply IH.
Qed.
Lemma without_absorb acc x l : In x acc -> without acc (remove dec x l) = without acc l.
Proof.
  intros H. rewrite without_remove. induction l as [|y l IH]; [now rewrite without_nil|].
  destruct (in_dec dec y acc) as [I|I]; [now rewrite without_skip|]. rewrite without_cons by exact I. cbn [remove].
  destruct (dec x y) as [->|]; [contradiction|]. now rewrite IH.
Qed.
Lemma fold_once l acc : fold_left (fun acc x => if existsb (eqb x) acc then acc else acc ++ [x]) l acc = acc ++ without acc (once dec l).
Proof.
  revert acc. induction l as [|x l IH]; intros acc; cbn [fold_left once]; [now rewrite without_nil, app_nil_r|].
  destruct (existsb (eqb x) acc) eqn:E.
  - rewrite IH. apply existsb_exists in E as (y & Hy & E). apply eqb_ok in E as <-. now rewrite without_skip, without_absorb by exact Hy.
  - assert (N : ~ In x acc). { intros H. rewrite <- not_true_iff_false in E. apply E. apply existsb_exists. exists x. split; [exact H|now apply eqb_ok]. }
    rewrite IH, without_cons, <- app_assoc by exact N. cbn [app]. do 2 f_equal. unfold without. rewrite fold_left_app. cbn [fold_left].
    fold (without acc (remove dec x (once dec l))). fold (without acc (once dec l)). now rewrite without_remove.
Qed.
Lemma fold_once_nil l : fold_left (fun acc x => if existsb (eqb x) acc then acc else acc ++ [x]) l [] = once dec l.
Proof. rewrite fold_once. reflexivity. Qed.
Lemma once_In l x : In x (once dec l) <-> In x l.
Proof.
  induction l as [|y l IH]; cbn [once In]; [tauto|]. split.
  - intros [H|H]; [auto|]. apply in_remove in H as [H _]. right. now apply IH.
  - intros [H|H]; [auto|]. destruct (dec y x) as [E|E]; [auto|]. right. apply in_in_remove; [congruence|now apply IH].
Qed.
Lemma remove_once_notin l x : ~ In x l -> remove dec x (once dec l) = once dec l.
Proof. intros N. apply notin_remove. now rewrite once_In. Qed.
Lemma remove_twice l x : remove dec x (remove dec x l) = remove dec x l.
Proof. apply notin_remove. apply remove_In. Qed.
Lemma once_remove l x : once dec (remove dec x l) = remove dec x (once dec l).
Proof.
  induction l as [|y l IH]; cbn [remove once]; [reflexivity|]. destruct (dec x y) as [->|N].
  - now rewrite remove_twice.
  - cbn [once]. now rewrite IH, remove_comm.
Qed.
Lemma once_once l : once dec (once dec l) = once dec l.
Proof. induction l as [|x l IH]; cbn [once]; [reflexivity|]. now rewrite once_remove, IH, remove_twice. Qed.
Lemma once_app_once a b : once dec (once dec a ++ b) = once dec (a ++ b).
Proof. rewrite <- (fold_once_nil (once dec a ++ b)), <- (fold_once_nil (a ++ b)), !fold_left_app, !fold_once_nil. now rewrite once_once. Qed.
End Once.
Lemma beqb_ok x y : beqb x y = true <-> x = y.
Proof. destruct (beqb_spec x y); split; congruence. Qed.
Lemma inc_same_ok x y : inc_same x y = true <-> x = y.
Proof.
  destruct x as [p|p s], y as [q|q t]; cbn [inc_same]; split; try discriminate; intros E.
  - now apply beqb_ok in E as ->.
  - injection E as <-. apply beqb_refl.
  - apply andb_prop in E as [E1 E2]. apply Bool.eqb_prop in E1 as ->. now apply beqb_ok in E2 as ->.
  - injection E as <- <-. now rewrite Bool.eqb_reflx, beqb_refl.
Qed.
Lemma dedup_once l : dedup l = once bytes_dec l.
Proof. apply (fold_once_nil bytes_dec beqb beqb_ok). Qed.
Lemma dedup_inc_once l : dedup_inc l = once inc_dec l.
Proof. apply (fold_once_nil inc_dec inc_same inc_same_ok). Qed.

(** ** Requests *)
Lemma plain_push l args h g ws : after h at_start = Some g -> Forall plain_ask l -> first_words l = Some ws ->
  exists g', push_all l args g = Done (args ++ ws, g') /\ after (h ++ l) at_start = Some g'.
Proof.
  intros H P E. destruct (push_all_words l args g ws) as (g' & E1 & E2).
  - apply (after_good h at_start g good_start H).
  - intros a Ha. apply plain_later. rewrite Forall_forall in P. now apply P.
  - intros l1 b l2 a l3 -> Q. apply quiet_silences in Q. rewrite plain_quiet in Q; [discriminate|].
    rewrite Forall_forall in P. apply P. apply in_or_app. right. now left.
  - exact E.
  - exists g'. split; [exact E1|]. clear -H E2. revert H. generalize at_start. induction h as [|b h IH]; intros s H; cbn [after app] in *; [now injection H as ->|].
    destruct (asks b s) as [[? s']|]; [|discriminate]. now apply IH.
Qed.
Lemma plain_linker0 t r : plain_ask (Linker0 t r). Proof. intros f n E. discriminate E. Qed.
Lemma plain_linker1s t r s : plain_ask (Linker1s t r s). Proof. intros f n E. discriminate E. Qed.
Lemma plain_linker_pgo t p : plain_ask (LinkerPgo t p). Proof. intros f n E. injection E as <- <-. destruct t; reflexivity. Qed.
Lemma plain_visibility t v : plain_ask (Visibility t v). Proof. intros f n E. injection E as <- <-. destruct t; reflexivity. Qed.

(** ** Include directories *)
Lemma include_answer t (s : bool) n : gcc_like t \/ posix_like t \/ (cl_like t /\ s = false) -> answer (Compiler1s t (if s then include_system else include) n) at_start = Some (include_words t s n).
Proof.
  intros H. unfold gcc_like, posix_like, cl_like in H. destruct t; try (exfalso; intuition discriminate); destruct s; try (exfalso; intuition discriminate); reflexivity.
Qed.
Lemma include_asks_ok root ex t l : is_abs root = true -> gcc_like t \/ posix_like t \/ (cl_like t /\ Forall (fun i => inc_system i = false) l) -> Forall (fun i => is_abs (inc_path i) = true) l ->
  exists a ws, include_asks root ex t l = Some a /\ Forall plain_ask a /\ first_words a = Some ws /\
    included root t (filter (fun i => ex (inc_path i)) l) ws.
Proof.
  intros Hr Ht F. induction F as [|i l Hi F IH]; cbn [include_asks filter].
  { exists [], []. repeat split; constructor. }
  assert (H1 : gcc_like t \/ posix_like t \/ (cl_like t /\ inc_system i = false)) by (destruct Ht as [|[|[? Ht]]]; [auto|auto|right; right; inversion Ht; auto]).
  destruct IH as (a & ws & E1 & E2 & E3 & E4). { destruct Ht as [|[|[? Ht]]]; [auto|auto|right; right; inversion Ht; auto]. }
  rewrite E1. destruct (ex (inc_path i)); [|exists a, ws; auto].
  rewrite is_abs_same, Hi. destruct (relative_stands root (inc_path i) Hr Hi) as (r & -> & S). eexists. eexists. split; [reflexivity|].
  split; [constructor; [apply plain1s|exact E2]|]. split; [cbn [first_words]; rewrite (include_answer t (inc_system i) r H1), E3; reflexivity|].
  constructor; [|exact E4]. rewrite (st_place _ _ _ S). unfold place, location. now rewrite Hi.
Qed.
Lemma last_words_ok t k : gcc_like t \/ posix_like t \/ cl_like t ->
  let l := (if k_pic k then [Compiler0 t pic] else []) ++ (if k_pie k then [Compiler0 t pie] else []) ++ (match k_visibility k with Some v => [Visibility t v] | None => [] end) in
  Forall plain_ask l /\ first_words l = Some (last_words t k).
Proof.
  intros H l. split.
  - unfold l. rewrite !Forall_app. repeat split; [destruct (k_pic k)|destruct (k_pie k)|destruct (k_visibility k)]; repeat constructor;
      first [apply plain0|apply plain_visibility].
  - unfold l, last_words. unfold gcc_like, posix_like, cl_like in H. destruct t; try (exfalso; intuition discriminate); destruct (k_pic k), (k_pie k), (k_visibility k) as [[]|]; reflexivity.
Qed.
Lemma compile_flags_ok root ex t k h g : is_abs root = true -> gcc_like t \/ posix_like t \/ (cl_like t /\ Forall (fun i => inc_system i = false) (dirs k)) -> Forall (fun i => is_abs (inc_path i) = true) (dirs k) ->
  sensible (k_options k) -> undisturbed t h -> after h at_start = Some g ->
  exists g' ws, compile_flags root ex t k g =
    Done (expected_flags t (k_options k) (everything_of t) ++ k_more k ++ ws ++ k_deps k ++ k_args k ++ last_words t k, g') /\
    included root t (filter (fun i => ex (inc_path i)) (once inc_dec (dirs k))) ws.
Proof.
  intros Hr Ht F So U H. unfold compile_flags. destruct (base_args_spec t (k_options k) (k_more k) h g So U H) as (g1 & -> & H1).
  rewrite !dedup_inc_once. assert (E : once inc_dec (once inc_dec (match k_private k with Some p => IncStr p :: k_incs k | None => k_incs k end) ++ k_project k) = once inc_dec (dirs k)).
  { rewrite (once_app_once inc_dec inc_same inc_same_ok). unfold dirs. destruct (k_private k); reflexivity. }
  rewrite E. destruct (include_asks_ok root ex t (once inc_dec (dirs k)) Hr) as (a & ws & E1 & E2 & E3 & E4).
  { destruct Ht as [|[|[Hc Ht]]]; [auto|auto|]. right. right. split; [exact Hc|]. rewrite Forall_forall in *. intros i Hi. apply Ht. now apply once_In in Hi. }
  { rewrite Forall_forall in *. intros i Hi. apply F. now apply once_In in Hi. }
  rewrite E1. destruct (plain_push a (expected_flags t (k_options k) (everything_of t) ++ k_more k) _ _ _ H1 E2 E3) as (g2 & -> & H2).
  destruct (last_words_ok t k ltac:(tauto)) as [L1 L2].
  destruct (plain_push _ (((expected_flags t (k_options k) (everything_of t) ++ k_more k) ++ ws) ++ k_deps k ++ k_args k) _ _ _ H2 L1 L2) as (g3 & -> & H3).
  exists g3, ws. split; [|exact E4]. now rewrite <- !app_assoc.
Qed.

(** ** include_directories() *)
Lemma relative_inside base p l : is_abs base = true -> is_abs p = true -> comps base <> [] -> comps p = comps base ++ l -> ~ In (B "..") (comps p) ->
  exists r, path_relative_to base p = Some r /\ r <> [] /\ is_abs r = false /\ comps r = l.
Proof.
  intros Hb Hp Nb E N. assert (Nu : Forall noup (comps p)).
  { apply Forall_forall. intros x Hx. unfold noup. apply beqb_neq. intros ->. contradiction. }
  pose proof (comps_good p) as G. rewrite E in G. apply Forall_app in G as [_ G].
  destruct l as [|x l].
  - exists (B "."). split; [|repeat split; discriminate]. rewrite app_nil_r in E. unfold path_relative_to.
    assert (N1 : base <> []) by (intros ->; discriminate). assert (N2 : p <> []) by (intros ->; discriminate).
    rewrite !normalize_true by assumption. rewrite Hb, Hp, E. rewrite !is_abs_same, !is_abs_render by apply flat_walk_good. cbn [negb orb]. now rewrite beqb_refl.
  - exists (render false (x :: l)). split; [apply relative_below; auto; discriminate|]. split; [now apply render_nonempty|].
    now rewrite is_abs_render, comps_render.
Qed.
Lemma clean_location p : ~ In (B "..") (comps p) -> location p = comps p.
Proof.
  intros N. unfold location, walk. rewrite fold_walk_noup; [reflexivity|]. apply Forall_forall. intros x Hx. unfold noup. apply beqb_neq. intros ->. contradiction.
Qed.
Lemma coerce_incs_ok source build cwd ex sys l :
  is_abs source = true -> comps source <> [] -> is_abs build = true -> is_abs cwd = true -> clean build -> clean cwd ->
  Forall (fun x => match x with inl p => clean p | inr _ => True end) l ->
  match coerce_incs source build cwd ex sys l with
  | Some r => all_meant source build cwd ex sys l r
  | None => exists p a, In (inl p) l /\ absolute cwd p a /\ ex a = false
  end.
Proof.
  intros Hs Ns Hb Hc Cb Cc F. induction F as [|x l Hx F IH]; cbn [coerce_incs]; [exists []; split; [constructor|reflexivity]|].
  destruct x as [p|i].
  2: { destruct (coerce_incs source build cwd ex sys l) as [rest|].
       - destruct IH as (ls & Hl & ->). exists ([i] :: ls). split; [constructor; [constructor|exact Hl]|reflexivity].
       - destruct IH as (p & a & H1 & H2). exists p, a. split; [now right|exact H2]. }
  assert (Nc : cwd <> []) by (intros ->; discriminate). assert (Nb : build <> []) by (intros ->; discriminate).
  assert (J : exists a, (if path_is_absolute p then Some p else path_join cwd p) = Some a /\ absolute cwd p a /\ is_abs a = true /\ clean a).
  { rewrite is_abs_same. unfold absolute. destruct (is_abs p) eqn:Ep; [exists p; repeat split; auto|].
    assert (X : exists a, path_join cwd p = Some a /\ is_abs a = true /\ comps a = comps cwd ++ comps p).
    { destruct p as [|c p].
      - rewrite path_join_nil_r by exact Nc. eexists. split; [reflexivity|]. pose proof (comps_good cwd) as G.
        rewrite is_abs_app by (now apply render_nonempty). rewrite comps_app, comps_render, is_abs_render by exact G. auto.
      - destruct (join_spec cwd (c :: p) Nc) as (r & E1 & E2 & E3); [discriminate|]. exists r. rewrite Ep, Hc in *. auto. }
    destruct X as (a & X1 & X2 & X3). exists a. repeat split; auto. unfold clean in *. rewrite X3. intros H. apply in_app_iff in H. tauto. }
  destruct J as (a & -> & Ab & Ha & Ca). destruct (ex a) eqn:Ex; [|exists p, a; split; [now left|auto]].
  rewrite (subpath_below source a Hs Ha). destruct (below (comps source) (comps a)) as [r|] eqn:Eb.
  - apply below_spec in Eb. destruct (relative_inside source a r Hs Ha Ns Eb Ca) as (n & -> & Nn & An & Cn).
    destruct (join_spec build n Nb Nn) as (q & -> & Q1 & Q2). rewrite An in Q1, Q2. rewrite Hb in Q1.
    destruct (coerce_incs source build cwd ex sys l) as [rest|].
    + destruct IH as (ls & Hl & ->). exists ([IncDir q sys; IncDir a sys] :: ls). split; [|reflexivity]. constructor; [|exact Hl].
      apply m_inside with r; auto; [now rewrite clean_location|]. rewrite clean_location; [now rewrite Q2, Cn|].
      rewrite Q2, Cn. intros H. apply in_app_iff in H as [H|H]; [now apply Cb|]. apply Ca. rewrite Eb. apply in_app_iff. now right.
    + destruct IH as (p' & a' & H1 & H2). exists p', a'. split; [now right|exact H2].
  - apply below_none in Eb. destruct (coerce_incs source build cwd ex sys l) as [rest|].
    + destruct IH as (ls & Hl & ->). exists ([IncDir a sys] :: ls). split; [|reflexivity]. constructor; [|exact Hl].
      apply m_outside; auto. now rewrite clean_location.
    + destruct IH as (p' & a' & H1 & H2). exists p', a'. split; [now right|exact H2].
Qed.

(** ** Linkers *)
Lemma relativize_all_ok root l : is_abs root = true -> Forall (fun p => is_abs p = true) l ->
  exists r, relativize_all root l = Some r /\ Forall2 (fun p n => place root n = location p) l r.
Proof.
  intros Hr F. induction F as [|p l Hp F (r & E & H)]; cbn [relativize_all]; [exists []; split; [reflexivity|constructor]|].
  destruct (relative_stands root p Hr Hp) as (n & -> & S). rewrite E. exists (n :: r). split; [reflexivity|]. constructor; [|exact H].
  rewrite (st_place _ _ _ S). unfold place, location. now rewrite Hp.
Qed.
Definition push_words (l : list push) : option (list bytes) :=
  fold_right (fun x acc => match (match x with Ask a => answer a at_start | Strs s => Some s end), acc with Some a, Some b => Some (a ++ b) | _, _ => None end) (Some []) l.
Lemma push_words_app a b x y : push_words a = Some x -> push_words b = Some y -> push_words (a ++ b) = Some (x ++ y).
Proof.
  revert x. induction a as [|p a IH]; intros x E1 E2; cbn [push_words fold_right app] in *; [now injection E1 as <-|].
  fold (push_words a) in E1. fold (push_words (a ++ b)). destruct (match p with Ask a => _ | Strs s => _ end) as [u|]; [|discriminate].
  destruct (push_words a) as [v|]; [|discriminate]. injection E1 as <-. rewrite (IH v eq_refl E2). now rewrite app_assoc.
Qed.
Definition plain_of (x : push) : Prop := match x with Ask a => plain_ask a | Strs _ => True end.
Lemma pushes_ok l : forall args g ws, good g -> Forall plain_of l -> push_words l = Some ws ->
  exists g', pushes l args g = Done (args ++ ws, g') /\ good g'.
Proof.
  induction l as [|x l IH]; intros args g ws G P E; cbn [pushes push_words fold_right] in *.
  { injection E as <-. exists g. now rewrite app_nil_r. }
  inversion P as [|? ? Px Pl]; subst. fold (push_words l) in E. destruct x as [a|s].
  - assert (A : answer a g = answer a at_start) by (apply answer_same; [exact G|now apply plain_later]).
    unfold answer in A, E. destruct (option_map fst (asks a at_start)) as [u|]; [|discriminate]. destruct (push_words l) as [v|]; [|discriminate]. injection E as <-.
    destruct (asks a g) as [[u' g1]|] eqn:Ea; [|discriminate]. cbn in A. injection A as ->.
    destruct (IH (args ++ u) g1 v (perform_good _ _ _ _ G Ea) Pl eq_refl) as (g' & -> & G'). exists g'. now rewrite <- app_assoc.
  - destruct (push_words l) as [v|]; [|discriminate]. injection E as <-. destruct (IH (args ++ s) g v G Pl eq_refl) as (g' & -> & G'). exists g'. now rewrite <- app_assoc.
Qed.
Lemma push_when (b : bool) l x : push_words l = Some x -> push_words (if b then l else []) = Some (when b x).
Proof. destruct b; [tauto|reflexivity]. Qed.
Lemma answer_linker1s t r s : fits (Linker1s t r s) -> answer (Linker1s t r s) at_start = Some (map text (spelling (Linker1s t r s))).
Proof. intros H. apply spelled_whole; [exact Logic.I|exact H]. Qed.
Lemma fits_linker t r s : length s <= 242 \/ (length s <= 243 /\ r <> soname) \/ r = lib -> fits (Linker1s t r s).
Proof.
  intros L f n rest H. destruct t, r; cbn [spelling In] in H; repeat destruct H as [H|H]; try contradiction; try discriminate H; injection H as <- <- <-;
    rewrite app_nil_r, app_length;
    change (length (B "-Wl,-soname,")) with 12; change (length (B "-Wl,-rpath,")) with 11; change (length (B "-fsanitize=")) with 11; change (length (B "/OUT:")) with 5;
    destruct L as [L|[[L X]|L]]; try lia; try congruence; try discriminate.
Qed.
Lemma push_map {A} (f : A -> push) (g : A -> list bytes) l : (forall x, In x l -> push_words [f x] = Some (g x)) ->
  push_words (map f l) = Some (concat (map g l)).
Proof.
  induction l as [|x l IH]; intros H; [reflexivity|]. cbn [map concat]. change (f x :: map f l) with ([f x] ++ map f l).
  apply push_words_app; [apply H; now left|]. apply IH. intros y Hy. apply H. now right.
Qed.
Lemma push_one a x : answer a at_start = Some x -> push_words [Ask a] = Some x.
Proof. intros E. cbn [push_words fold_right]. now rewrite E, app_nil_r. Qed.
Lemma filter_empty_same (l : list bytes) : filter (fun p => negb (is_empty p)) l = filter (fun d => negb (beqb d [])) l.
Proof. apply filter_ext. intros [|c p]; reflexivity. Qed.
Lemma rpath_words t l : Forall (fun d => length d <= 243) l ->
  push_words (map (fun p => Ask (Linker1s t rpath p)) l) = Some (when (gnu t) (map (fun d => B "-Wl,-rpath," ++ d) l)).
Proof.
  intros F. rewrite (push_map _ (fun d => when (gnu t) [B "-Wl,-rpath," ++ d])).
  - f_equal. destruct (gnu t); cbn [when]; clear F; induction l as [|x l IH]; cbn [map concat app]; congruence.
  - intros d Hd. rewrite Forall_forall in F. apply push_one. rewrite answer_linker1s.
    + destruct t; cbn [gnu when spelling map text fst snd]; rewrite ?app_nil_r; reflexivity.
    + apply fits_linker. right. left. split; [now apply F|discriminate].
Qed.
Lemma missing_words t l : push_words (map (fun n => Ask (Linker1s t lib n)) l) = Some (concat (map (lib_words t) l)).
Proof.
  apply push_map. intros n _. apply push_one. rewrite answer_linker1s by (apply fits_linker; auto).
  destruct t; cbn [lib_words microsoft spelling map text]; rewrite ?app_nil_r; reflexivity.
Qed.
Lemma push_strs s : push_words [Strs s] = Some s.
Proof. cbn. now rewrite app_nil_r. Qed.
Lemma b_words t o : In (o_pgo o) [B "off"; B "generate"; B "use"] -> length (o_sanitize o) <= 243 ->
  exists b, linker_b_asks t o = Done b /\ Forall plain_ask b /\
    push_words (map Ask b) = Some (
      when (gnu t) (when (beqb (o_pgo o) (B "generate")) [B "-fprofile-generate"] ++ when (beqb (o_pgo o) (B "use")) [B "-fprofile-use"; B "-fprofile-correction"]) ++
      when (gnu t || apple t) (when (negb (beqb (o_sanitize o) (B "none"))) [B "-fsanitize=" ++ o_sanitize o] ++ when (o_lto o) [B "-flto"])).
Proof.
  intros P S. unfold linker_b_asks.
  assert (Hs : push_words (map Ask (if beqb (o_sanitize o) (B "none") then [] else [Linker1s t l_sanitize (o_sanitize o)])) =
               Some (when (gnu t || apple t) (when (negb (beqb (o_sanitize o) (B "none"))) [B "-fsanitize=" ++ o_sanitize o]))).
  { destruct (beqb (o_sanitize o) (B "none")); cbn [negb when map]; [destruct t; reflexivity|].
    apply push_one. rewrite answer_linker1s by (apply fits_linker; right; left; split; [exact S|discriminate]).
    destruct t; cbn [gnu apple orb when spelling map text]; rewrite ?app_nil_r; reflexivity. }
  assert (Hl : push_words (map Ask (if o_lto o then [Linker0 t l_enable_lto] else [])) = Some (when (gnu t || apple t) (when (o_lto o) [B "-flto"]))).
  { destruct (o_lto o); destruct t; reflexivity. }
  set (rest := (if beqb (o_sanitize o) (B "none") then [] else [Linker1s t l_sanitize (o_sanitize o)]) ++ (if o_lto o then [Linker0 t l_enable_lto] else [])).
  assert (Hr : Forall plain_ask rest /\ push_words (map Ask rest) = Some (when (gnu t || apple t) (when (negb (beqb (o_sanitize o) (B "none"))) [B "-fsanitize=" ++ o_sanitize o] ++ when (o_lto o) [B "-flto"]))).
  { split.
    - unfold rest. apply Forall_app. split; [destruct (beqb _ _)|destruct (o_lto o)]; repeat constructor; first [apply plain_linker1s|apply plain_linker0].
    - unfold rest. rewrite map_app, (push_words_app _ _ _ _ Hs Hl). f_equal. destruct (gnu t || apple t); reflexivity. }
  destruct Hr as [R1 R2].
  destruct P as [P|[P|[P|[]]]]; rewrite <- P; cbn [beqb].
  - exists rest. split; [reflexivity|]. split; [exact R1|]. rewrite R2. f_equal. destruct (gnu t); reflexivity.
  - exists (LinkerPgo t Generate :: rest). split; [reflexivity|]. split; [constructor; [apply plain_linker_pgo|exact R1]|].
    cbn [map]. change (Ask (LinkerPgo t Generate) :: map Ask rest) with ([Ask (LinkerPgo t Generate)] ++ map Ask rest).
    apply push_words_app; [destruct t; reflexivity|exact R2].
  - exists (LinkerPgo t Use :: rest). split; [reflexivity|]. split; [constructor; [apply plain_linker_pgo|exact R1]|].
    cbn [map]. change (Ask (LinkerPgo t Use) :: map Ask rest) with ([Ask (LinkerPgo t Use)] ++ map Ask rest).
    apply push_words_app; [destruct t; reflexivity|exact R2].
Qed.
Lemma group_words t whole libs missing :
  push_words (if is_empty whole && is_empty libs && is_empty missing then [] else
    [Ask (Linker0 t start_group)]
    ++ (if is_empty whole then [] else [Ask (Linker0 t whole_archive); Strs whole; Ask (Linker0 t no_whole_archive)])
    ++ [Strs libs] ++ map (fun n => Ask (Linker1s t lib n)) missing ++ [Ask (Linker0 t end_group)]) =
  Some (library_words t whole libs missing).
Proof.
  assert (X : is_empty whole && is_empty libs && is_empty missing = false ->
    library_words t whole libs missing = when (gnu t) [B "-Wl,--start-group"] ++
      match whole with
      | [] => []
      | _ => when (gnu t) [B "-Wl,--whole-archive"] ++ match t with l_lld_link => [B "/whole-archive"] | _ => [] end ++ whole ++ when (gnu t) [B "-Wl,--no-whole-archive"]
      end ++ libs ++ concat (map (lib_words t) missing) ++ when (gnu t) [B "-Wl,--end-group"]).
  { destruct whole, libs, missing; intros; try discriminate; reflexivity. }
  destruct (is_empty whole && is_empty libs && is_empty missing) eqn:E.
  { destruct whole, libs, missing; try discriminate; reflexivity. }
  rewrite (X eq_refl). clear X E. repeat apply push_words_app.
  - destruct t; reflexivity.
  - destruct whole as [|x l]; [reflexivity|]. cbn [is_empty].
    assert (Y : push_words [Ask (Linker0 t whole_archive)] = Some (when (gnu t) [B "-Wl,--whole-archive"] ++ match t with l_lld_link => [B "/whole-archive"] | _ => [] end)) by (destruct t; reflexivity).
    assert (Z : push_words [Ask (Linker0 t no_whole_archive)] = Some (when (gnu t) [B "-Wl,--no-whole-archive"])) by (destruct t; reflexivity).
    pose proof (push_words_app _ _ _ _ Y (push_words_app _ _ _ _ (push_strs (x :: l)) Z)) as W. rewrite <- !app_assoc in W. exact W.
  - apply push_strs.
  - apply missing_words.
  - destruct t; reflexivity.
Qed.
Lemma forall_map_ask {A} (f : A -> ask) l : (forall x, plain_ask (f x)) -> Forall plain_of (map (fun x => Ask (f x)) l).
Proof. intros H. induction l; constructor; auto. apply H. Qed.
Lemma shared_words t w : length (w_soname w) <= 242 ->
  push_words (match w_type w with
    | SharedLib => [Ask (Linker0 t shared); Ask (Linker1s t soname (w_soname w))]
    | SharedModule => [Ask (Linker0 t shared); Ask (Linker1s t soname (w_soname w)); Ask (Linker0 t allow_shlib_undefined)]
    | Executable | StaticLib => []
    end) = Some (when (is_shared w) (
      (if microsoft t then [B "/DYNAMICBASE"; B "/OUT:" ++ w_soname w] else [B "-shared"] ++ when (gnu t) [B "-Wl,-soname," ++ w_soname w]) ++
      when (is_module w && gnu t) [B "-Wl,--allow-shlib-undefined"])).
Proof.
  intros L. assert (X : push_words [Ask (Linker0 t shared); Ask (Linker1s t soname (w_soname w))] =
    Some (if microsoft t then [B "/DYNAMICBASE"; B "/OUT:" ++ w_soname w] else [B "-shared"] ++ when (gnu t) [B "-Wl,-soname," ++ w_soname w])).
  { pose proof (push_one _ _ (answer_linker1s t soname (w_soname w) (fits_linker _ _ _ (or_introl L)))) as Y.
    assert (Z : push_words [Ask (Linker0 t shared)] = Some (if microsoft t then [B "/DYNAMICBASE"] else [B "-shared"])) by (destruct t; reflexivity).
    refine (eq_trans (push_words_app _ _ _ _ Z Y) _). destruct t; cbn [microsoft gnu when spelling map text app]; rewrite ?app_nil_r; reflexivity. }
  unfold is_shared, is_module. destruct (w_type w); cbn [when andb]; try reflexivity; [rewrite X, app_nil_r; reflexivity|].
  assert (Z : push_words [Ask (Linker0 t allow_shlib_undefined)] = Some (when (gnu t) [B "-Wl,--allow-shlib-undefined"])) by (destruct t; reflexivity).
  exact (push_words_app _ _ _ _ X Z).
Qed.
Lemma link_flags_ok root t w g : linkable root w -> good g ->
  exists g' whole libs, S_Flags.named root (d_whole (w_pass w)) whole /\ S_Flags.named root (d_with (w_pass w)) libs /\
    link_flags root t w g = Done (expected_link t w whole libs (once bytes_dec (d_missing (w_pass w))), g') /\ good g'.
Proof.
  intros [Hr Hf Hp Hs Hrp Hso] G. apply Forall_app in Hf as [F1 F2]. unfold link_flags.
  destruct (relativize_all_ok root _ Hr F1) as (libs & -> & N1). destruct (relativize_all_ok root _ Hr F2) as (whole & -> & N2).
  destruct (b_words t (w_options w) Hp Hs) as (b & -> & B1 & B2). rewrite !dedup_once.
  assert (A1 : push_words [Ask (Linker0 t as_needed)] = Some (when (gnu t) [B "-Wl,--as-needed"])) by (destruct t; reflexivity).
  assert (A2 : push_words (match w_type w with SharedModule => [] | _ => [Ask (Linker0 t no_undefined)] end) =
               Some (when (gnu t) (when (negb (is_module w)) [B "-Wl,--no-undefined"]))) by (unfold is_module; destruct (w_type w), t; reflexivity).
  assert (A3 : push_words (if w_export w then [Ask (Linker0 t export_dynamic)] else []) = Some (when (gnu t) (when (w_export w) [B "-Wl,-export-dynamic"]))) by (destruct (w_export w), t; reflexivity).
  pose proof (push_words_app _ _ _ _ (push_strs (w_option_args w)) (push_words_app _ _ _ _ (push_strs (w_global w)) (push_strs (w_project w)))) as A4.
  assert (Frp : Forall (fun d => length d <= 243) (filter (fun p => negb (is_empty p)) (d_rpath (w_pass w)))).
  { rewrite Forall_forall in *. intros d Hd. apply filter_In in Hd as [Hd _]. now apply Hrp. }
  pose proof (rpath_words t _ Frp) as A5. rewrite filter_empty_same in A5 at 2.
  pose proof (group_words t (once bytes_dec whole) (once bytes_dec libs) (once bytes_dec (d_missing (w_pass w)))) as A6.
  pose proof (shared_words t w Hso) as A7.
  pose proof (push_words_app _ _ _ _ A1 (push_words_app _ _ _ _ A2 (push_words_app _ _ _ _ A3 (push_words_app _ _ _ _ B2
    (push_words_app _ _ _ _ A4 (push_words_app _ _ _ _ A5 (push_words_app _ _ _ _ A6 A7))))))) as W.
  eapply pushes_ok with (args := d_link (w_pass w)) in W; [|exact G|].
  - destruct W as (g' & W & G'). exists g', (once bytes_dec whole), (once bytes_dec libs).
    split; [exists whole; auto|]. split; [exists libs; auto|]. split; [|exact G']. refine (eq_trans W _). do 2 f_equal. unfold expected_link.
    destruct (gnu t); cbn [when app]; rewrite <- ?app_assoc; cbn [app]; rewrite <- ?app_assoc; reflexivity.
  - rewrite !Forall_app. repeat split.
    + repeat constructor. apply plain_linker0.
    + destruct (w_type w); repeat constructor; apply plain_linker0.
    + destruct (w_export w); repeat constructor; apply plain_linker0.
    + clear -B1. induction B1; constructor; auto.
    + repeat constructor.
    + repeat constructor.
    + repeat constructor.
    + apply forall_map_ask. intros. apply plain_linker1s.
    + destruct (_ && _ && _); [constructor|]. rewrite !Forall_app. repeat split.
      * repeat constructor. apply plain_linker0.
      * destruct (is_empty _); repeat constructor; apply plain_linker0.
      * repeat constructor.
      * apply forall_map_ask. intros. apply plain_linker1s.
      * repeat constructor. apply plain_linker0.
    + destruct (w_type w); repeat constructor; first [apply plain_linker0|apply plain_linker1s].
Qed.
