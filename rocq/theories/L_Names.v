(** Lemmas about the names of shared libraries and their links. *)
From Coq Require Import Lia NArith.
From Verif Require Import Base M_Path S_Path L_Path L_Path2 L_Path3 M_Escape M_Backend S_Backend M_Compile S_Compile L_Compile S_Custom L_Custom M_Names S_Names.
Local Arguments B _ : simpl never.

Lemma cut_all n s : (N.of_nat (length s) <= n)%N -> cut n s = s.
Proof. intros H. unfold cut. apply firstn_all2. lia. Qed.
Lemma before_dot_major v : major v (before_dot v).
Proof.
  unfold before_dot, major. induction v as [|c v IH]; cbn [span fst]; [split; [tauto|now left]|].
  destruct (ceqb_spec c "."%char) as [->|N]; cbn [negb].
  - split; [tauto|]. right. exists v. reflexivity.
  - destruct (span _ v) as [x y] eqn:E. cbn [fst] in *. destruct IH as [H1 H2]. split.
    + intros [H|H]; [congruence|contradiction].
    + destruct H2 as [->|(r & ->)]; [now left|right; exists r; reflexivity].
Qed.
Lemma same_place_spec a b : same_place a b = true <-> a = b.
Proof.
  revert b. induction a as [|x a IH]; intros [|y b]; cbn [same_place]; split; try discriminate; try reflexivity; intros H.
  - apply andb_prop in H as [H1 H2]. apply IH in H2 as ->. destruct (beqb_spec x y); congruence.
  - injection H as <- <-. rewrite beqb_refl. now apply IH.
Qed.
Lemma put_here p e f : put p e f p = Some e.
Proof. unfold put. now rewrite (proj2 (same_place_spec p p) eq_refl). Qed.
Lemma put_there p q e f : q <> p -> put p e f q = f q.
Proof. intros N. unfold put. destruct (same_place q p) eqn:E; [|reflexivity]. apply same_place_spec in E. contradiction. Qed.

(** ** names *)
Lemma target_names_ok dir a : fits_buffers a -> is_abs dir = true ->
  exists build so, file_name a build /\ soname_of a so /\
    target_names OtherSystem SharedLib dir a =
      (do l <- links_of dir (library_name a) build so; Some (library_name a, build, Some so, l)).
Proof.
  intros (L & Ls & Lv) Hd. unfold target_names, build_names, name_parts. cbn [windows_like].
  assert (P : cut 2047 ((match n_pre a with Some p => p | None => B "lib" end) ++ n_name a ++
              dotted (match n_suff a with Some s => Some s | None => Some (B "so") end)) = library_name a).
  { transitivity (cut 2047 (library_name a)); [|now apply cut_all]. unfold library_name. destruct (n_suff a); reflexivity. }
  rewrite P. exists (library_name a ++ dotted (match n_ver a with Some v => Some v | None => n_sover a end)), (so_name (library_name a) a).
  split; [|split].
  - unfold file_name. destruct (n_ver a), (n_sover a); cbn [dotted]; rewrite ?app_nil_r; reflexivity.
  - unfold soname_of, so_name. destruct (n_sover a) as [s|]; [now rewrite cut_all by (apply Ls; reflexivity)|].
    destruct (n_ver a) as [v|]; [|apply app_nil_r]. rewrite cut_all by (apply Lv; reflexivity). exists (before_dot v). split; [apply before_dot_major|reflexivity].
  - reflexivity.
Qed.
(** every name of a library is its name with something before and after *)
Definition around (a : naming_args) (n : bytes) : Prop := exists p r, n = p ++ n_name a ++ r /\ ~ In "/"%char n.
Lemma around_ok a n : ordinary a -> around a n -> one_name n /\ n <> B "..".
Proof.
  intros [_ (c & r & En & Nc)] (p & q & E & Ns). rewrite En in E.
  assert (I : In c n) by (rewrite E; apply in_or_app; right; now left).
  assert (D : n <> B "." /\ n <> B "..").
  { split; intros ->; vm_compute in I; intuition congruence. }
  destruct D as [D1 D2]. split; [|exact D2]. split; [intros ->; contradiction|]. auto.
Qed.
Lemma library_around a : ordinary a -> around a (library_name a).
Proof.
  intros [Sl _]. unfold library_name. rewrite !in_app_iff in Sl.
  exists (match n_pre a with Some p => p | None => B "lib" end), (B "." ++ match n_suff a with Some s => s | None => B "so" end). split; [reflexivity|].
  rewrite !in_app_iff. intros [H|[H|[H|H]]].
  - destruct (n_pre a); cbn [given] in *; [tauto|]. vm_compute in H. intuition discriminate.
  - tauto.
  - vm_compute in H. intuition discriminate.
  - destruct (n_suff a); cbn [given] in *; [tauto|]. vm_compute in H. intuition discriminate.
Qed.
Lemma around_app a n r : around a n -> ~ In "/"%char r -> around a (n ++ r).
Proof.
  intros (p & q & E & N) Nr. exists p, (q ++ r). split; [rewrite E, <- !app_assoc; reflexivity|]. rewrite in_app_iff. tauto.
Qed.
Lemma dot_noslash s : ~ In "/"%char s -> ~ In "/"%char (B "." ++ s).
Proof. intros N H. apply in_app_iff in H as [H|H]; [|contradiction]. vm_compute in H. intuition discriminate. Qed.
Lemma major_noslash v m : major v m -> ~ In "/"%char v -> ~ In "/"%char m.
Proof. intros [_ [->|(r & ->)]] N H; apply N; [exact H|]. apply in_or_app. now left. Qed.
Lemma file_around a n : ordinary a -> file_name a n -> around a n.
Proof.
  intros O F. pose proof (library_around a O) as A. destruct O as [Sl _]. rewrite !in_app_iff in Sl. unfold file_name in F.
  destruct (n_ver a) as [v|]; [|destruct (n_sover a) as [s|]]; subst n; cbn [given] in Sl; [apply around_app; [exact A|apply dot_noslash; tauto]..|exact A].
Qed.
Lemma soname_around a n : ordinary a -> soname_of a n -> around a n.
Proof.
  intros O F. pose proof (library_around a O) as A. destruct O as [Sl _]. rewrite !in_app_iff in Sl. unfold soname_of in F.
  destruct (n_sover a) as [s|]; [subst n; cbn [given] in Sl; apply around_app; [exact A|apply dot_noslash; tauto]|].
  destruct (n_ver a) as [v|]; [|now subst n]. destruct F as (m & M & ->). cbn [given] in Sl. apply around_app; [exact A|]. apply dot_noslash.
  apply (major_noslash v m M). tauto.
Qed.

(** ** links *)
Lemma walk_clean l : ~ In (B "..") l -> snd (walk l) = l.
Proof. intros N. unfold walk. rewrite fold_walk_noup; [reflexivity|]. apply Forall_forall. intros x Hx. unfold noup. apply beqb_neq. intros ->. contradiction. Qed.
Lemma clean_loc p : ~ In (B "..") (comps p) -> location p = comps p.
Proof. apply walk_clean. Qed.
Lemma join_one dir n : is_abs dir = true -> clean dir -> one_name n -> n <> B ".." ->
  exists p, path_join dir n = Some p /\ is_abs p = true /\ comps p = comps dir ++ [n] /\ location p = comps dir ++ [n] /\ path_basename p = Some n.
Proof.
  intros Hd Cd On Nn. destruct (one_name_comps n On) as [Cn An]. assert (N0 : n <> []) by apply On.
  destruct (join_spec dir n) as (p & E & Q1 & Q2); [intros ->; discriminate|exact N0|]. rewrite An in Q1, Q2. rewrite Cn in Q2.
  exists p. rewrite Hd in Q1. repeat split; auto.
  - rewrite clean_loc; [exact Q2|]. rewrite Q2. intros H. apply in_app_iff in H as [H|[H|[]]]; [now apply Cd|congruence].
  - apply (dirname_basename p (comps dir) n); [intros ->; discriminate|exact Q2].
Qed.
Lemma leads_one f D n t q : one_name t -> t <> B ".." -> ~ In (B "..") D -> f (D ++ [n]) = Some (Link t) -> leads f (D ++ [t]) q -> leads f (D ++ [n]) q.
Proof.
  intros Ot Nt Cd E L. destruct (one_name_comps t Ot) as [Ct At]. apply follow with t; [exact E|]. rewrite At, Ct, walk_clean; [exact L|].
  intros H. apply in_app_iff in H as [H|[H|[]]]; [now apply Cd|congruence].
Qed.
Lemma same_dir {A} (D : list A) n m : D ++ [n] = D ++ [m] -> n = m.
Proof. intros E. apply app_inv_head in E. congruence. Qed.
Lemma longer_name a n : file_name a n -> library_name a = n -> n_ver a = None /\ n_sover a = None.
Proof.
  unfold file_name. intros F E. destruct (n_ver a) as [v|]; [|destruct (n_sover a) as [s|]]; [exfalso..|auto]; rewrite F in E; apply (f_equal (@length _)) in E;
    rewrite !app_length in E; change (length (B ".")) with 1 in E; lia.
Qed.
Lemma own_links dir a : fits_buffers a -> ordinary a -> is_abs dir = true -> clean dir ->
  exists build so l, file_name a build /\ soname_of a so /\ target_names OtherSystem SharedLib dir a = Some (library_name a, build, Some so, l) /\
    Forall (fun x => location (fst x) <> comps dir ++ [build] /\ exists n, around a n /\ (n = so \/ n = library_name a) /\ is_abs (fst x) = true /\ comps (fst x) = comps dir ++ [n]) l /\
    (forall f,
      (so <> build -> make_links location l f (comps dir ++ [so]) = Some (Link build)) /\ (so <> library_name a -> make_links location l f (comps dir ++ [library_name a]) = Some (Link so))) /\
    l = (if beqb build so then [] else [(render true (comps dir ++ [so]), build)]) ++ (if beqb so (library_name a) then [] else [(render true (comps dir ++ [library_name a]), so)]).
Proof.
  intros Fi O Hd Cd. destruct (target_names_ok dir a Fi Hd) as (build & so & F & So & ->). exists build, so.
  pose proof (library_around a O) as Al. pose proof (file_around a build O F) as Ab. pose proof (soname_around a so O So) as As.
  destruct (around_ok a _ O Al) as [Ol Nl]. destruct (around_ok a _ O As) as [Os Ns].
  assert (J : forall n, one_name n -> path_join dir n = Some (render true (comps dir ++ [n]))).
  { intros n On. destruct (one_name_comps n On) as [Cn An]. rewrite (join_name dir n Hd); [now rewrite Cn|apply On|exact An]. }
  assert (Lo : forall n, one_name n -> n <> B ".." -> is_abs (render true (comps dir ++ [n])) = true /\ comps (render true (comps dir ++ [n])) = comps dir ++ [n] /\ location (render true (comps dir ++ [n])) = comps dir ++ [n]).
  { intros n On Nn. destruct (join_one dir n Hd Cd On Nn) as (p & E & Q1 & Q2 & Q3 & _). rewrite (J n On) in E. injection E as <-. auto. }
  destruct (Lo _ Os Ns) as (As1 & As2 & As3). destruct (Lo _ Ol Nl) as (Al1 & Al2 & Al3).
  assert (Lb : so <> library_name a -> library_name a <> build).
  { intros N E. apply (longer_name a build F) in E as [E1 E2]. apply N. unfold soname_of in So. now rewrite E1, E2 in So. }
  unfold links_of. rewrite (J so Os), (J _ Ol).
  exists ((if beqb build so then [] else [(render true (comps dir ++ [so]), build)]) ++ (if beqb so (library_name a) then [] else [(render true (comps dir ++ [library_name a]), so)])).
  split; [exact F|]. split; [exact So|]. split; [destruct (beqb build so), (beqb so (library_name a)); reflexivity|].
  destruct (beqb_spec build so) as [E1|N1]; destruct (beqb_spec so (library_name a)) as [E2|N2]; cbn [app].
  - split; [constructor|]. split; [|reflexivity]. intros f. split; congruence.
  - split; [|split; [|reflexivity]].
    + constructor; [|constructor]. cbn [fst]. rewrite Al3. split; [intros E; apply same_dir in E; now apply Lb|]. exists (library_name a). auto.
    + intros f. split; [congruence|]. intros _. cbn [make_links fold_left fst snd]. rewrite Al3. apply put_here.
  - split; [|split; [|reflexivity]].
    + constructor; [|constructor]. cbn [fst]. rewrite As3. split; [intros E; apply same_dir in E; congruence|]. exists so. auto.
    + intros f. split; [|congruence]. intros _. cbn [make_links fold_left fst snd]. rewrite As3. apply put_here.
  - split; [|split; [|reflexivity]].
    + constructor; [|constructor; [|constructor]]; cbn [fst].
      * rewrite As3. split; [intros E; apply same_dir in E; congruence|]. exists so. auto.
      * rewrite Al3. split; [intros E; apply same_dir in E; now apply Lb|]. exists (library_name a). auto.
    + intros f. cbn [make_links fold_left fst snd]. rewrite As3, Al3. split; intros _; [|apply put_here].
      rewrite put_there by (intros E; apply same_dir in E; congruence). apply put_here.
Qed.
Lemma make_links_other l f q : Forall (fun x => location (fst x) <> q) l -> make_links location l f q = f q.
Proof.
  revert f. induction l as [|x l IH]; intros f F; cbn [make_links fold_left]; [reflexivity|]. inversion F as [|? ? H1 H2]; subst.
  fold (make_links location l (put (location (fst x)) (Link (snd x)) f)). rewrite IH by exact H2. apply put_there. congruence.
Qed.
Lemma own_leads f D a build so : ordinary a -> file_name a build -> soname_of a so -> ~ In (B "..") D ->
  (so <> build -> f (D ++ [so]) = Some (Link build)) -> (so <> library_name a -> f (D ++ [library_name a]) = Some (Link so)) ->
  leads f (D ++ [so]) (D ++ [build]) /\ leads f (D ++ [library_name a]) (D ++ [build]).
Proof.
  intros O F So Cd E1 E2. destruct (around_ok a build O (file_around a build O F)) as [Ob Nb]. destruct (around_ok a so O (soname_around a so O So)) as [Os Ns].
  assert (L1 : leads f (D ++ [so]) (D ++ [build])).
  { destruct (beqb_spec so build) as [->|N]; [constructor|]. apply (leads_one f D so build); auto. constructor. }
  split; [exact L1|]. destruct (beqb_spec so (library_name a)) as [E|N]; [now rewrite <- E|]. apply (leads_one f D (library_name a) so); auto.
Qed.
(** names that belong to libraries that are apart differ *)
Definition starts (a : naming_args) (n : bytes) : Prop := exists r, n = B "lib" ++ n_name a ++ B "." ++ r.
Lemma library_starts a : usual a -> starts a (library_name a).
Proof. intros (H1 & H2 & _). unfold library_name. rewrite H1, H2. now exists (B "so"). Qed.
Lemma starts_app a n r : starts a n -> starts a (n ++ r).
Proof. intros (x & ->). exists (x ++ r). now rewrite <- !app_assoc. Qed.
Lemma file_starts a n : usual a -> file_name a n -> starts a n.
Proof. intros U F. pose proof (library_starts a U). unfold file_name in F. destruct (n_ver a), (n_sover a); subst n; try (now apply starts_app); assumption. Qed.
Lemma soname_starts a n : usual a -> soname_of a n -> starts a n.
Proof.
  intros U F. pose proof (library_starts a U). unfold soname_of in F. destruct (n_sover a); [subst; now apply starts_app|].
  destruct (n_ver a); [|now subst]. destruct F as (m & _ & ->). now apply starts_app.
Qed.
Lemma dot_split (x y r s : bytes) : ~ In "."%char x -> ~ In "."%char y -> x ++ "."%char :: r = y ++ "."%char :: s -> x = y.
Proof.
  revert y. induction x as [|c x IH]; intros [|d y] Nx Ny E; cbn [app] in E.
  - reflexivity.
  - injection E as E _. elim Ny. now left.
  - injection E as E _. elim Nx. now left.
  - injection E as -> E. f_equal. apply (IH y); [intros H; apply Nx; now right|intros H; apply Ny; now right|exact E].
Qed.
Lemma starts_same a b n : usual a -> usual b -> starts a n -> starts b n -> n_name a = n_name b.
Proof.
  intros (_ & _ & Na) (_ & _ & Nb) (r & ->) (s & E). apply app_inv_head in E. change (B ".") with ["."%char] in E. cbn [app] in E. exact (dot_split _ _ _ _ Na Nb E).
Qed.
Lemma apart_places x y n m : usual (snd x) -> usual (snd y) -> apart x y -> starts (snd x) n -> starts (snd y) m -> comps (fst x) ++ [n] <> comps (fst y) ++ [m].
Proof.
  intros Ux Uy A Sx Sy E. apply app_inj_tail in E as [E1 E2]. subst m. destruct A as [A|A]; [contradiction|]. apply A. exact (starts_same _ _ n Ux Uy Sx Sy).
Qed.

(** ** sequences of libraries *)
Definition proper (x : bytes * naming_args) : Prop :=
  fits_buffers (snd x) /\ ordinary (snd x) /\ usual (snd x) /\ is_abs (fst x) = true /\ clean (fst x).
Definition entries (f : files) (x : bytes * naming_args) : Prop := forall build so, file_name (snd x) build -> soname_of (snd x) so ->
  (so <> build -> f (comps (fst x) ++ [so]) = Some (Link build)) /\ (so <> library_name (snd x) -> f (comps (fst x) ++ [library_name (snd x)]) = Some (Link so)).
Lemma file_name_one a n m : file_name a n -> file_name a m -> n = m.
Proof. unfold file_name. destruct (n_ver a), (n_sover a); congruence. Qed.
Lemma major_one v m n : major v m -> major v n -> m = n.
Proof.
  intros [Nm [->|(r & ->)]] [Nn [E|(s & E)]].
  - exact E.
  - subst m. elim Nm. apply in_or_app. right. now left.
  - subst n. elim Nn. apply in_or_app. right. now left.
  - change (B ".") with ["."%char] in E. cbn [app] in E. exact (dot_split _ _ _ _ Nm Nn E).
Qed.
Lemma soname_one a n m : soname_of a n -> soname_of a m -> n = m.
Proof.
  unfold soname_of. destruct (n_sover a); [congruence|]. destruct (n_ver a); [|congruence]. intros (x & H1 & ->) (y & H2 & ->). now rewrite (major_one _ _ _ H1 H2).
Qed.
Lemma declare_ok libs : forall f, Forall proper libs -> ForallOrdPairs apart libs ->
  exists f', declare_all OtherSystem location libs f = Some f' /\ Forall (entries f') libs /\
    (forall x build, In x libs -> file_name (snd x) build -> f' (comps (fst x) ++ [build]) = f (comps (fst x) ++ [build])) /\
    (forall q, (forall x n, In x libs -> starts (snd x) n -> q <> comps (fst x) ++ [n]) -> f' q = f q).
Proof.
  induction libs as [|[dir a] libs IH]; intros f P A; cbn [declare_all].
  { exists f. repeat split; auto. }
  inversion P as [|? ? P1 P2]; subst. inversion A as [|? ? A1 A2]; subst. destruct P1 as (Fi & O & U & Hd & Cd). cbn [fst snd] in *.
  destruct (own_links dir a Fi O Hd Cd) as (build & so & l & F & So & -> & Fl & Li & _). cbn [snd].
  destruct (IH (make_links location l f) P2 A2) as (f' & E & En & Bu & Ot). exists f'. split; [exact E|].
  rewrite Forall_forall in P2, A1.
  (* the links of this library are not touched by the others *)
  assert (Keep : forall n, starts a n -> f' (comps dir ++ [n]) = make_links location l f (comps dir ++ [n])).
  { intros n Sn. apply Ot. intros x m Hx Sm. destruct (P2 x Hx) as (_ & _ & Ux & _). apply (apart_places (dir, a) x n m U Ux); auto. }
  assert (Here : Forall (fun x => exists n, starts a n /\ location (fst x) = comps dir ++ [n]) l).
  { rewrite Forall_forall in *. intros x Hx. destruct (Fl x Hx) as (_ & n & An & Hn & Q1 & Q2). destruct (around_ok a n O An) as [On Nn]. exists n. split.
    - destruct Hn as [->| ->]; [exact (soname_starts a so U So)|exact (library_starts a U)].
    - rewrite clean_loc; [exact Q2|]. rewrite Q2. intros H. apply in_app_iff in H as [H|[H|[]]]; [now apply Cd|congruence]. }
  split; [|split].
  - constructor; [|exact En]. intros b s Fb Sb. cbn [fst snd] in *. rewrite (file_name_one _ _ _ Fb F), (soname_one _ _ _ Sb So).
    rewrite !Keep by first [exact (soname_starts a so U So)|exact (library_starts a U)]. apply Li.
  - intros x b [<-|Hx] Fb.
    + cbn [fst snd] in *. rewrite (file_name_one _ _ _ Fb F). rewrite Keep by exact (file_starts a build U F). apply make_links_other.
      rewrite Forall_forall in *. intros y Hy. now apply Fl.
    + rewrite (Bu x b Hx Fb). apply make_links_other. rewrite Forall_forall in *. intros y Hy. destruct (Here y Hy) as (n & Sn & ->).
      destruct (P2 x Hx) as (_ & _ & Ux & _). apply (apart_places (dir, a) x n b U Ux); auto. exact (file_starts _ _ Ux Fb).
  - intros q Hq. rewrite Ot by (intros x n Hx; apply Hq; now right). apply make_links_other. rewrite Forall_forall in *. intros y Hy.
    destruct (Here y Hy) as (n & Sn & ->). intros E1. apply (Hq (dir, a) n); [now left|exact Sn|now rewrite <- E1].
Qed.

(** ** installation *)
Lemma install_ok dir inst a f id : fits_buffers a -> ordinary a -> is_abs dir = true -> clean dir -> is_abs inst = true -> clean inst -> comps inst <> comps dir ->
  forall build so, file_name a build -> soname_of a so ->
  f (comps dir ++ [build]) = Some (File id) -> ~ is_link f (comps inst ++ [build]) ->
  exists l t f', target_names OtherSystem SharedLib dir a = Some (library_name a, build, Some so, l) /\ to_install dir inst build l = Some t /\
    install_all location t (make_links location l f) = Some f' /\
    f' (comps inst ++ [build]) = Some (File id) /\
    (so <> build -> f' (comps inst ++ [so]) = Some (Link build)) /\ (so <> library_name a -> f' (comps inst ++ [library_name a]) = Some (Link so)).
Proof.
  intros Fi O Hd Cd Hi Ci Nd build so F So Ef Nl. destruct (own_links dir a Fi O Hd Cd) as (b & s & l & F' & So' & E & Fl & Li & El).
  rewrite (file_name_one _ _ _ F' F) in *. rewrite (soname_one _ _ _ So' So) in *. clear b s F' So'. exists l.
  destruct (around_ok a _ O (library_around a O)) as [Ol Dl]. destruct (around_ok a _ O (soname_around a so O So)) as [Os Ds].
  destruct (around_ok a _ O (file_around a build O F)) as [Ob Db].
  destruct (join_one dir build Hd Cd Ob Db) as (p1 & J1 & _ & _ & L1 & _). destruct (join_one inst build Hi Ci Ob Db) as (p2 & J2 & _ & _ & L2 & _).
  destruct (join_one dir so Hd Cd Os Ds) as (p3 & J3 & _ & _ & L3 & B3). destruct (join_one inst so Hi Ci Os Ds) as (p4 & J4 & _ & _ & L4 & _).
  destruct (join_one dir _ Hd Cd Ol Dl) as (p5 & J5 & _ & _ & L5 & B5). destruct (join_one inst _ Hi Ci Ol Dl) as (p6 & J6 & _ & _ & L6 & _).
  assert (R : forall n p, one_name n -> path_join dir n = Some p -> render true (comps dir ++ [n]) = p).
  { intros n p On J. destruct (one_name_comps n On) as [Cn An]. rewrite (join_name dir n Hd) in J; [|apply On|exact An]. rewrite Cn in J. congruence. }
  rewrite (R _ _ Os J3), (R _ _ Ol J5) in El. clear R.
  assert (Dif : forall n m, comps dir ++ [n] <> comps inst ++ [m]) by (intros n m X; apply app_inj_tail in X as [X _]; congruence).
  assert (Dif' : forall n m, comps inst ++ [n] <> comps dir ++ [m]) by (intros n m X; apply app_inj_tail in X as [X _]; congruence).
  assert (In' : forall n m, n <> m -> comps inst ++ [n] <> comps inst ++ [m]) by (intros n m X Y; apply same_dir in Y; contradiction).
  set (g := make_links location l f) in *.
  assert (G1 : g (comps dir ++ [build]) = Some (File id)).
  { unfold g. rewrite make_links_other; [exact Ef|]. rewrite Forall_forall in *. intros y Hy. now apply Fl. }
  assert (G2 : g (comps inst ++ [build]) = f (comps inst ++ [build])).
  { unfold g. apply make_links_other. rewrite Forall_forall in *. intros y Hy. destruct (Fl y Hy) as (_ & n & An & _ & _ & Q). destruct (around_ok a n O An) as [On Nn].
    rewrite clean_loc; rewrite Q; [apply Dif|]. intros H. apply in_app_iff in H as [H|[H|[]]]; [now apply Cd|congruence]. }
  specialize (Li f). fold g in Li. destruct Li as [G3 G4].
  assert (Lb : so <> library_name a -> library_name a <> build).
  { intros N X. apply (longer_name a build F) in X as [X1 X2]. apply N. unfold soname_of in So. now rewrite X1, X2 in So. }
  assert (First : forall rest, install_all location ((p1, p2) :: rest) g = install_all location rest (put (comps inst ++ [build]) (File id) g)).
  { intros rest. cbn [install_all]. rewrite L1, G1, L2, G2. destruct (f (comps inst ++ [build])) as [[|t]|] eqn:X; try reflexivity. elim Nl. now exists t. }
  unfold to_install. rewrite J1, J2, El. destruct (beqb_spec build so) as [E1|N1]; destruct (beqb_spec so (library_name a)) as [E2|N2]; cbn [app fold_right fst].
  - eexists _, _. split; [now rewrite E, El|]. split; [reflexivity|]. split; [rewrite First; reflexivity|]. split; [apply put_here|]. split; congruence.
  - rewrite B5, J6. eexists _, _. split; [rewrite E, El; destruct (beqb_spec build so), (beqb_spec so (library_name a)); try congruence; reflexivity|]. split; [reflexivity|].
    split; [rewrite First; cbn [install_all]; rewrite L5, put_there, G4 by auto; reflexivity|]. rewrite L6.
    split; [rewrite put_there; [apply put_here|apply In'; intros X; symmetry in X; revert X; now apply Lb]|]. split; [congruence|]. intros _. apply put_here.
  - rewrite B3, J4. eexists _, _. split; [rewrite E, El; destruct (beqb_spec build so), (beqb_spec so (library_name a)); try congruence; reflexivity|]. split; [reflexivity|].
    split; [rewrite First; cbn [install_all]; rewrite L3, put_there, G3 by auto; reflexivity|]. rewrite L4.
    split; [rewrite put_there; [apply put_here|now apply In']|]. split; [|congruence]. intros _. apply put_here.
  - rewrite B3, J4, B5, J6. eexists _, _. split; [rewrite E, El; destruct (beqb_spec build so), (beqb_spec so (library_name a)); try congruence; reflexivity|]. split; [reflexivity|].
    split; [rewrite First; cbn [install_all]; rewrite L3, put_there, G3 by auto; rewrite L4, L5, (put_there (comps inst ++ [so])), put_there, G4 by auto; reflexivity|]. rewrite L6.
    split; [rewrite put_there; [rewrite put_there; [apply put_here|now apply In']|apply In'; intros X; symmetry in X; revert X; now apply Lb]|].
    split; intros _; [rewrite put_there; [apply put_here|now apply In']|apply put_here].
Qed.
