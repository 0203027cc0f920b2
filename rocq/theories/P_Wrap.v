(** C142, C143, C144: wrap files. *)
From Verif Require Import Base M_Path M_Sha S_Sha M_Wrap S_Wrap L_Wrap.
Local Arguments B _ : simpl never.

(** ** C142 *)

Lemma kind_git : forall ls, Forall (fun s => In s [B "wrap-file"; B "wrap-git"; B "provide"]) (headers ls) ->
  length (kinds ls) <= 1 ->
  (match kinds ls with [] => TFile | s :: _ => type_of s end = TGit <-> In (B "wrap-git") (headers ls)).
Proof.
  intros ls _ L. assert (K : In (B "wrap-git") (headers ls) <-> In (B "wrap-git") (kinds ls)).
  { unfold kinds. rewrite filter_In. split; [intros I; split; [exact I|reflexivity]|intros (I & _); exact I]. }
  rewrite K. destruct (kinds ls) as [|s [|s2 r]]; cbn [length] in L; [| |lia].
  - split; [discriminate|intros []].
  - unfold type_of. destruct (beqb_spec s (B "wrap-git")) as [->|N]; [split; [left; reflexivity|reflexivity]|].
    split; [discriminate|]. intros [E|[]]. congruence.
Qed.

(** A wrap file is accepted exactly if its lines are acceptable. *)
Theorem C142_accepted : forall ls, in_order None ls -> ((exists c, wrap_parse ls = Some c) <-> acceptable ls).
Proof.
  intros ls O. destruct (parse_ok ls None ctx0 O ltac:(discriminate) ltac:(constructor)) as (A & Bc).
  cbn [ctx0 fields have_type wtyp one app plus] in A, Bc. unfold acceptable, wrap_parse. split.
  - intros (c & H). destruct (parse_lines ctx0 ls) as [c1|] eqn:E; [|discriminate].
    destruct (proj1 A (ex_intro _ c1 eq_refl)) as (A1 & A2 & A3 & A4 & A5). destruct (Bc c1 eq_refl) as (B1 & B2).
    destruct (validate c1) eqn:V; [|discriminate]. apply validate_fit in V.
    2:{ rewrite B2. destruct (kinds ls) as [|s r]; [discriminate|]. unfold type_of. destruct (beqb s _); discriminate. }
    repeat (split; [assumption|]). rewrite B1 in V. unfold fit in *. rewrite B2, (kind_git ls A2 A3) in V. exact V.
  - intros (A1 & A2 & A3 & A4 & A5 & A6). destruct (proj2 A (conj A1 (conj A2 (conj A3 (conj A4 A5))))) as (c1 & E).
    rewrite E. destruct (Bc c1 E) as (B1 & B2). exists c1.
    assert (V : validate c1 = true).
    { apply validate_fit.
      - rewrite B2. destruct (kinds ls) as [|s r]; [discriminate|]. unfold type_of. destruct (beqb s _); discriminate.
      - rewrite B1. unfold fit in *. rewrite B2, (kind_git ls A2 A3). exact A6. }
    rewrite V. reflexivity.
Qed.
Print Assumptions C142_accepted.

(** What it says is what it is taken to say. *)
Theorem C142_fields : forall ls c, in_order None ls -> wrap_parse ls = Some c ->
  (forall k v, get k (fields c) = Some v <-> In (k, v) (given_fields ls))
  /\ (wtyp c = TGit <-> In (B "wrap-git") (headers ls)) /\ (wtyp c = TFile <-> ~ In (B "wrap-git") (headers ls)).
Proof.
  intros ls c O H. destruct (proj1 (C142_accepted ls O) (ex_intro _ c H)) as (A1 & A2 & A3 & A4 & A5 & A6).
  destruct (parse_ok ls None ctx0 O ltac:(discriminate) ltac:(constructor)) as (_ & Bc).
  unfold wrap_parse in H. destruct (parse_lines ctx0 ls) as [c1|] eqn:E; [|discriminate].
  destruct (validate c1); [|discriminate]. injection H as ->. destruct (Bc c eq_refl) as (B1 & B2).
  cbn [ctx0 fields wtyp app] in B1, B2. split.
  - intros k v. rewrite B1. clear - A4. induction (given_fields ls) as [|[a x] l IH]; [split; [discriminate|intros []]|].
    cbn [map fst] in A4. inversion A4 as [|? ? N1 N2]; subst. cbn [get In].
    destruct (beqb_spec a k) as [->|Ne].
    + split; [intros [= ->]; left; reflexivity|]. intros [[= ->]|I]; [reflexivity|]. exfalso. apply N1.
      change k with (fst (k, v)). apply in_map. exact I.
    + rewrite (IH N2). split; [right; assumption|]. intros [[= -> _]|I]; [congruence|exact I].
  - rewrite <- (kind_git ls A2 A3), <- B2. split; [reflexivity|]. split; [intros ->; discriminate|].
    intros N. destruct (kinds ls) as [|s r]; [exact B2|]. unfold type_of in B2. destruct (beqb s _); congruence.
Qed.
Print Assumptions C142_fields.

Definition S (s : string) : item := (Some (B s), None).
Definition K (s k v : string) : item := (Some (B s), Some (B k, B v)).
Definition good_wrap : list item :=
  [ S "wrap-file"; K "wrap-file" "directory" "foo-1.0"; K "wrap-file" "source_url" "https://x/foo.tar";
    K "wrap-file" "source_filename" "foo.tar"; K "wrap-file" "patch_directory" "foo"; S "provide"; K "provide" "foo" "foo_dep" ].

Example C142_ex : in_order None good_wrap /\ (exists c, wrap_parse good_wrap = Some c)
  /\ wrap_parse (good_wrap ++ [S "wrap-git"]) = None
  /\ wrap_parse [S "wrap-git"; K "wrap-git" "url" "https://x"] = None
  /\ wrap_parse [S "wrap-file"; K "wrap-file" "patch_url" "https://x"] = None.
Proof. cbn -[B wrap_parse]. repeat split; try discriminate; try (eexists; vm_compute; reflexivity); vm_compute; reflexivity. Qed.

(** A file that does not say what kind of wrap it is is taken for a wrap-file. *)
Theorem C142_no_kind_refuted : forall k v c,
  wrap_parse [(Some (B "provide"), None); (Some (B "provide"), Some (k, v))] = Some c -> wtyp c = TFile /\ have_type c = false.
Proof. intros k v c H. injection H as <-. split; reflexivity. Qed.
Print Assumptions C142_no_kind_refuted.

Example C142_no_kind_ex : exists c, wrap_parse [S "provide"; K "provide" "foo" "foo_dep"] = Some c.
Proof. eexists. vm_compute. reflexivity. Qed.

(** ** C143 *)

(** A checksum that is hexadecimal fits data exactly if it spells its SHA-256. *)
Theorem C143_checksum_partial : forall d s, (N.of_nat (length d) < 2 ^ 61)%N -> hex s ->
  (checksum d s = true <-> length s = 64 /\ spells s (SHA256 (map N_of_ascii d))).
Proof.
  intros d s L H. unfold checksum. destruct (Nat.eqb_spec (length s) 64) as [Ls|Ls]; cbn [negb].
  - rewrite sha_now by exact L. rewrite (same_spells _ _ H). tauto.
  - split; [discriminate|]. intros (E & _). contradiction.
Qed.
Print Assumptions C143_checksum_partial.

(** Anything is done only when it may be: *)
Theorem C143_allowed : forall w c dest_dir sub junk download h1 a h2 o,
  wrap_handle w c dest_dir sub junk download = (h1 ++ a :: h2, o) ->
  match a with
  (* something is downloaded only if it may be and nothing local takes its place *)
  | Fetch u => download = true /\ exists name url hash s, part (fields c) name url hash /\ url = Some u
      /\ (exists n, name = Some n /\ join_paths [sub; B "packagefiles"; n] = Some s)
      /\ file_at w h1 s = None /\ dir_at w h1 s = false
  (* an archive is unpacked only if it fits its hash, and it is the local file or was just downloaded *)
  | Extract d _ => exists name url hash, part (fields c) name url hash
      /\ (forall x, hash = Some x -> checksum d x = true)
      /\ ((exists n s, name = Some n /\ join_paths [sub; B "packagefiles"; n] = Some s /\ file_at w h1 s = Some d)
          \/ exists h u, url = Some u /\ h1 = h ++ [Fetch u] /\ net w h u = Some d)
  | CopyDir s _ => exists name url hash n, part (fields c) name url hash /\ name = Some n
      /\ join_paths [sub; B "packagefiles"; n] = Some s /\ dir_at w h1 s = true
  | Clone u d => download = true /\ wtyp c = TGit /\ value (B "url") (fields c) = Some u /\ d = dest_dir
  | Checkout r d => wtyp c = TGit /\ value (B "revision") (fields c) = Some r /\ d = dest_dir
  | Patch _ d => d = dest_dir /\ exists v, value (B "diff_files") (fields c) = Some v
  | Mkdir d => dir_at w h1 d = false /\ (d = dest_dir \/ d = sub)
  end.
Proof.
  intros w c dest_dir sub junk download h1 a h2 o H.
  match goal with |- ?G => set (P := fun (h : list action) (x : action) => match x with
  | Fetch u => download = true /\ exists name url hash s, part (fields c) name url hash /\ url = Some u
      /\ (exists n, name = Some n /\ join_paths [sub; B "packagefiles"; n] = Some s)
      /\ file_at w h s = None /\ dir_at w h s = false
  | Extract d _ => exists name url hash, part (fields c) name url hash
      /\ (forall x, hash = Some x -> checksum d x = true)
      /\ ((exists n s, name = Some n /\ join_paths [sub; B "packagefiles"; n] = Some s /\ file_at w h s = Some d)
          \/ exists h0 u, url = Some u /\ h = h0 ++ [Fetch u] /\ net w h0 u = Some d)
  | CopyDir s _ => exists name url hash n, part (fields c) name url hash /\ name = Some n
      /\ join_paths [sub; B "packagefiles"; n] = Some s /\ dir_at w h s = true
  | Clone u d => download = true /\ wtyp c = TGit /\ value (B "url") (fields c) = Some u /\ d = dest_dir
  | Checkout r d => wtyp c = TGit /\ value (B "revision") (fields c) = Some r /\ d = dest_dir
  | Patch _ d => d = dest_dir /\ exists v, value (B "diff_files") (fields c) = Some v
  | Mkdir d => dir_at w h d = false /\ (d = dest_dir \/ d = sub)
  end); change (P h1 a) end.
  assert (Pf : forall name url hash dest h, part (fields c) name url hash ->
    steps P h (fst (packagefiles w name url hash sub dest download h))).
  { intros name url hash dest h Pt. apply pf_steps; unfold P.
    - intros s d Hc (n & En & Ej) Ef. exists name, url, hash. split; [exact Pt|]. split; [exact Hc|]. left. exists n, s. repeat split; assumption.
    - intros s (n & En & Ej) Ed. exists name, url, hash, n. repeat split; assumption.
    - intros s u J Ef Ed Eu Dl. split; [exact Dl|]. exists name, url, hash, s. repeat split; assumption.
    - intros u d Hc Eu En. exists name, url, hash. split; [exact Pt|]. split; [exact Hc|]. right. exists h, u. repeat split; assumption. }
  assert (St : steps P [] (fst (wrap_handle w c dest_dir sub junk download))).
  { unfold wrap_handle. destruct (path_join dest_dir (B "meson.build")) as [mb|]; [|apply steps_none].
    destruct (file_at w [] mb); [apply steps_none|]. apply steps_then.
    - destruct (wtyp c) eqn:Et; [| |apply steps_none].
      + unfold handle_file. set (dest := if has _ _ then dest_dir else sub).
        assert (Dd : dest = dest_dir \/ dest = sub) by (unfold dest; destruct (has _ _); tauto).
        apply steps_then.
        * destruct (dir_at w [] dest) eqn:Ed; [apply steps_none|]. apply steps_one. split; assumption.
        * intros h' Sh. apply (steps_more P _ h' _ Sh). apply Pf. left. rewrite !get_value. repeat split; reflexivity.
      + destruct download; [|apply steps_none]. cbn [negb]. unfold handle_git.
        destruct (get (B "url") (fields c)) as [u|] eqn:Eu; [|apply steps_none].
        destruct (get (B "revision") (fields c)) as [r|] eqn:Er; [|apply steps_none].
        rewrite get_value in Eu, Er. apply steps_then.
        * apply steps_one. repeat split; assumption || reflexivity.
        * intros h' Sh. apply (steps_more P _ h' _ Sh). apply steps_one. repeat split; assumption || reflexivity.
    - intros h' Sh. apply (steps_more P _ h' _ Sh). unfold apply_patch.
      destruct (match get (B "patch_directory") (fields c) with
        | Some d => (dest_dir, Some d) | None => (sub, get (B "patch_filename") (fields c)) end) as [dest name] eqn:En.
      assert (Pn : forall n, name = Some n -> part (fields c) name (get (B "patch_url") (fields c)) (get (B "patch_hash") (fields c))).
      { intros n E1. right. rewrite <- !get_value. split; [|split; reflexivity].
        destruct (get (B "patch_directory") (fields c)) as [d|] eqn:Ed; injection En as _ <-; [right|left]; reflexivity. }
      apply steps_then.
      + destruct name as [n|]; [|apply steps_none]. apply Pf. exact (Pn n eq_refl).
      + intros h'' Sh'. apply (steps_more P _ h'' _ Sh'). destruct (get (B "diff_files") (fields c)) as [v|] eqn:Ev; [|apply steps_none].
        rewrite get_value in Ev. unfold apply_diffs. destruct (path_join sub (B "packagefiles")) as [dir|]; [|apply steps_none].
        destruct (diff_names v junk) as [l o']. apply each_steps. intros h p. split; [reflexivity|]. exists v. exact Ev. }
  rewrite H in St. destruct St as (t & Et & Ht). cbn [fst app] in Et. exact (Ht h1 a h2 (eq_sym Et)).
Qed.
Print Assumptions C143_allowed.

(** Nothing is done if the subproject is there. *)
Theorem C143_present : forall w c dest_dir sub junk download mb d,
  join_paths [dest_dir; B "meson.build"] = Some mb -> file_at w [] mb = Some d ->
  wrap_handle w c dest_dir sub junk download = ([], Good).
Proof.
  intros w c dest_dir sub junk download mb d J F. unfold wrap_handle.
  assert (E : path_join dest_dir (B "meson.build") = Some mb).
  { unfold join_paths in J. cbn [join_paths_from] in J. unfold path_join. destruct (path_push [] dest_dir) as [p|]; [|discriminate].
    destruct (path_push p (B "meson.build")); [exact J|discriminate]. }
  rewrite E, F. reflexivity.
Qed.
Print Assumptions C143_present.

(** A repository is cloned and checked out before anything else. *)
Theorem C143_git : forall w c dest_dir sub junk download h mb,
  wtyp c = TGit -> join_paths [dest_dir; B "meson.build"] = Some mb -> file_at w [] mb = None ->
  wrap_handle w c dest_dir sub junk download = (h, Good) ->
  exists u r t, value (B "url") (fields c) = Some u /\ value (B "revision") (fields c) = Some r
    /\ h = Clone u dest_dir :: Checkout r dest_dir :: t.
Proof.
  intros w c dest_dir sub junk download h mb T J F H. unfold wrap_handle in H.
  destruct (path_join dest_dir (B "meson.build")) as [mb'|] eqn:E; [|discriminate].
  assert (mb' = mb).
  { unfold join_paths in J. cbn [join_paths_from] in J. unfold path_join in E. destruct (path_push [] dest_dir) as [p|]; [|discriminate].
    rewrite E in J. congruence. }
  subst mb'. rewrite F, T in H. destruct download; [|discriminate]. cbn [negb] in H. unfold handle_git in H.
  rewrite !get_value in H.
  destruct (value (B "url") (fields c)) as [u|]; [|discriminate]. destruct (value (B "revision") (fields c)) as [r|]; [|discriminate].
  unfold act in H. cbn [app] in H. destruct (works w [] (Clone u dest_dir)); [|discriminate]. cbn [andthen] in H.
  destruct (works w [Clone u dest_dir] (Checkout r dest_dir)); [|discriminate]. cbn [andthen] in H.
  change ([Clone u dest_dir] ++ [Checkout r dest_dir]) with [Clone u dest_dir; Checkout r dest_dir] in H.
  set (h0 := [Clone u dest_dir; Checkout r dest_dir]) in *.
  assert (St : steps (fun _ _ => True) h0 (fst (apply_patch w c dest_dir sub junk true h0))).
  { unfold apply_patch. destruct (match get (B "patch_directory") (fields c) with
        | Some d => (dest_dir, Some d) | None => (sub, get (B "patch_filename") (fields c)) end) as [dest name].
    apply steps_then; [destruct name; [apply pf_steps; intros; exact I|apply steps_none]|].
    intros h' Sh. apply (steps_more _ _ h' _ Sh). destruct (get (B "diff_files") (fields c)) as [v|]; [|apply steps_none].
    unfold apply_diffs. destruct (path_join sub (B "packagefiles")); [|apply steps_none]. destruct (diff_names v junk). apply each_steps.
    intros; exact I. }
  rewrite H in St. destruct St as (t & Et & _). cbn [fst] in Et. exists u, r, t. split; [reflexivity|]. split; [reflexivity|]. exact Et.
Qed.
Print Assumptions C143_git.

(** What is done to obtain a part of a subproject after [h]: the local file of its name is taken,
    else the local directory, else it is downloaded if that is allowed; archives must fit the hash
    if there is one. *)
Definition obtained (w : world) (download : bool) (sub : bytes) (name url hash : option bytes) (dest : bytes)
    (h l : list action) : Prop :=
  exists n s, name = Some n /\ join_paths [sub; B "packagefiles"; n] = Some s
  /\ let fits d := forall x, hash = Some x -> checksum d x = true in
     (exists d, file_at w h s = Some d /\ fits d /\ l = [Extract d dest])
     \/ (file_at w h s = None /\ dir_at w h s = true /\ l = [CopyDir s dest])
     \/ (file_at w h s = None /\ dir_at w h s = false /\ download = true
         /\ exists u d, url = Some u /\ net w h u = Some d /\ fits d /\ l = [Fetch u; Extract d dest]).

Lemma obtained_good : forall w name url hash sub dest dl h h', packagefiles w name url hash sub dest dl h = (h', Good) ->
  exists l, h' = h ++ l /\ obtained w dl sub name url hash dest h l.
Proof.
  intros w name url hash sub dest dl h h' H. unfold packagefiles in H.
  destruct name as [n|]; [|discriminate]. destruct (path_join sub (B "packagefiles")) as [dir|] eqn:Ed; [|discriminate].
  destruct (path_push dir n) as [src|] eqn:Es; [|discriminate].
  assert (J : join_paths [sub; B "packagefiles"; n] = Some src).
  { unfold join_paths. cbn [join_paths_from]. unfold path_join in Ed.
    destruct (path_push [] sub) as [s|]; [|discriminate]. rewrite Ed, Es. reflexivity. }
  assert (X : forall d h1, checksum_extract w d hash dest h1 = (h', Good) ->
    h' = h1 ++ [Extract d dest] /\ forall x, hash = Some x -> checksum d x = true).
  { intros d h1 Hx. unfold checksum_extract, act in Hx. destruct hash as [x|].
    - destruct (checksum d x) eqn:Ec; [|discriminate]. split; [congruence|]. intros y [= <-]. exact Ec.
    - split; [congruence|]. intros y [=]. }
  destruct (file_at w h src) as [d|] eqn:Ef.
  - destruct (X _ _ H) as (-> & Hc). exists [Extract d dest]. split; [reflexivity|]. exists n, src.
    split; [reflexivity|]. split; [exact J|]. left. exists d. split; [exact Ef|]. split; [exact Hc|reflexivity].
  - destruct (dir_at w h src) eqn:Ed2.
    + unfold act in H. exists [CopyDir src dest]. split; [congruence|]. exists n, src.
      split; [reflexivity|]. split; [exact J|]. right. left. split; [exact Ef|]. split; [exact Ed2|reflexivity].
    + destruct url as [u|]; [|discriminate]. destruct dl; [|discriminate]. cbn [negb] in H. unfold fetch in H.
      destruct (net w h u) as [d|] eqn:En; [|discriminate]. destruct (X _ _ H) as (-> & Hc).
      exists [Fetch u; Extract d dest]. split; [rewrite <- app_assoc; reflexivity|]. exists n, src.
      split; [reflexivity|]. split; [exact J|]. right. right. split; [exact Ef|]. split; [exact Ed2|]. split; [reflexivity|].
      exists u, d. split; [reflexivity|]. split; [exact En|]. split; [exact Hc|reflexivity].
Qed.

Lemma join_two : forall a b, join_paths [a; b] = path_join a b.
Proof.
  intros a b. unfold join_paths, path_join. cbn [join_paths_from]. destruct (path_push [] a) as [s|]; [|reflexivity].
  destruct (path_push s b); reflexivity.
Qed.

Lemma patches_good : forall w dir dest l o h0 h1, apply_each w dir dest l o h0 = (h1, Good) ->
  o = Good /\ exists ps, h1 = h0 ++ map (fun p => Patch p dest) ps /\ map Some ps = map (fun f => join_paths [dir; f]) l.
Proof.
  intros w dir dest l o. induction l as [|f l IH]; intros h0 h1 H; cbn [apply_each] in H.
  - injection H as <- ->. split; [reflexivity|]. exists []. split; [symmetry; apply app_nil_r|reflexivity].
  - destruct (path_join dir f) as [p|] eqn:Ep; [|discriminate]. unfold act in H.
    destruct (works w h0 (Patch p dest)); [|discriminate]. cbn [andthen] in H.
    destruct (IH _ _ H) as (-> & ps & -> & E). split; [reflexivity|]. exists (p :: ps). cbn [map].
    rewrite <- app_assoc, E, join_two, Ep. split; reflexivity.
Qed.

Lemma then_good : forall x k h, andthen x k = (h, Good) -> exists h1, x = (h1, Good) /\ k h1 = (h, Good).
Proof. intros [h1 o] k h H. destruct o; cbn [andthen] in H; try discriminate. exists h1. split; [reflexivity|exact H]. Qed.

Lemma patch_good : forall w c dest_dir sub junk dl h h', apply_patch w c dest_dir sub junk dl h = (h', Good) ->
  exists l2 l3, h' = h ++ l2 ++ l3
  /\ match value (B "patch_directory") (fields c), value (B "patch_filename") (fields c) with
     | Some d, _ => obtained w dl sub (Some d) (value (B "patch_url") (fields c)) (value (B "patch_hash") (fields c)) dest_dir h l2
     | None, Some f => obtained w dl sub (Some f) (value (B "patch_url") (fields c)) (value (B "patch_hash") (fields c)) sub h l2
     | None, None => l2 = []
     end
  /\ (value (B "diff_files") (fields c) = None -> l3 = [])
  /\ (forall v, value (B "diff_files") (fields c) = Some v -> exists fs ps dir, diff_names v junk = (fs, Good)
      /\ join_paths [sub; B "packagefiles"] = Some dir /\ l3 = map (fun p => Patch p dest_dir) ps
      /\ map Some ps = map (fun f => join_paths [dir; f]) fs).
Proof.
  intros w c dest_dir sub junk dl h h' H. unfold apply_patch in H. rewrite !get_value in H.
  destruct (match value (B "patch_directory") (fields c) with
        | Some d => (dest_dir, Some d) | None => (sub, value (B "patch_filename") (fields c)) end) as [dest name] eqn:En.
  apply then_good in H as (h1 & H1 & H2).
  assert (D : exists l3, h' = h1 ++ l3 /\ (value (B "diff_files") (fields c) = None -> l3 = [])
    /\ (forall v, value (B "diff_files") (fields c) = Some v -> exists fs ps dir, diff_names v junk = (fs, Good)
      /\ join_paths [sub; B "packagefiles"] = Some dir /\ l3 = map (fun p => Patch p dest_dir) ps
      /\ map Some ps = map (fun f => join_paths [dir; f]) fs)).
  { destruct (value (B "diff_files") (fields c)) as [v|].
    - unfold apply_diffs in H2. rewrite join_two. destruct (path_join sub (B "packagefiles")) as [dir|]; [|discriminate].
      destruct (diff_names v junk) as [fs o] eqn:Ev. destruct (patches_good _ _ _ _ _ _ _ H2) as (-> & ps & -> & E).
      eexists. split; [reflexivity|]. split; [discriminate|]. intros v' [= <-]. exists fs, ps, dir.
      split; [exact Ev|]. split; [reflexivity|]. split; [reflexivity|exact E].
    - exists []. rewrite app_nil_r. split; [congruence|]. split; [reflexivity|discriminate]. }
  destruct D as (l3 & -> & D1 & D2).
  assert (Q : exists l2, h1 = h ++ l2 /\ match name with
    | Some n => obtained w dl sub (Some n) (value (B "patch_url") (fields c)) (value (B "patch_hash") (fields c)) dest h l2
    | None => l2 = [] end).
  { destruct name as [n|]; [exact (obtained_good _ _ _ _ _ _ _ _ _ H1)|]. exists []. rewrite app_nil_r. split; [congruence|reflexivity]. }
  destruct Q as (l2 & -> & Q). exists l2, l3. split; [symmetry; apply app_assoc|]. split; [|split; [exact D1|exact D2]].
  destruct (value (B "patch_directory") (fields c)) as [d|]; injection En as <- <-; [exact Q|].
  destruct (value (B "patch_filename") (fields c)) as [f|]; exact Q.
Qed.

(** What is done for a subproject that is not there, when all goes well: its source is obtained,
    then what is patched into it, and then the patches are applied. *)
Theorem C143_done : forall w c dest_dir sub junk download h mb,
  join_paths [dest_dir; B "meson.build"] = Some mb -> file_at w [] mb = None ->
  wrap_handle w c dest_dir sub junk download = (h, Good) ->
  exists l1 l2 l3, h = l1 ++ l2 ++ l3
  /\ match wtyp c with
     | TGit => download = true /\ exists u r, value (B "url") (fields c) = Some u /\ value (B "revision") (fields c) = Some r
         /\ l1 = [Clone u dest_dir; Checkout r dest_dir]
     | _ => exists dest mk l,
         (value (B "lead_directory_missing") (fields c) = None -> dest = sub)
         /\ (value (B "lead_directory_missing") (fields c) <> None -> dest = dest_dir)
         /\ (dir_at w [] dest = true -> mk = []) /\ (dir_at w [] dest = false -> mk = [Mkdir dest]) /\ l1 = mk ++ l
         /\ obtained w download sub (value (B "source_filename") (fields c)) (value (B "source_url") (fields c))
              (value (B "source_hash") (fields c)) dest mk l
     end
  /\ match value (B "patch_directory") (fields c), value (B "patch_filename") (fields c) with
     | Some d, _ => obtained w download sub (Some d) (value (B "patch_url") (fields c)) (value (B "patch_hash") (fields c)) dest_dir l1 l2
     | None, Some f => obtained w download sub (Some f) (value (B "patch_url") (fields c)) (value (B "patch_hash") (fields c)) sub l1 l2
     | None, None => l2 = []
     end
  /\ forall p d, In (Patch p d) h <-> In (Patch p d) l3.
Proof.
  intros w c dest_dir sub junk download h mb J F H. unfold wrap_handle in H. rewrite <- join_two, J, F in H.
  apply then_good in H as (l1 & H1 & H2). destruct (patch_good _ _ _ _ _ _ _ _ H2) as (l2 & l3 & -> & A & _).
  exists l1, l2, l3. split; [reflexivity|].
  assert (No : forall name url hash dest g l, obtained w download sub name url hash dest g l -> forall p d, ~ In (Patch p d) l).
  { intros name url hash dest g l (n & s & _ & _ & [(d & _ & _ & ->)|[(_ & _ & ->)|(_ & _ & _ & u & d & _ & _ & _ & ->)]]) p q I; cbn in I;
      intuition discriminate. }
  assert (G : match wtyp c with
     | TGit => download = true /\ exists u r, value (B "url") (fields c) = Some u /\ value (B "revision") (fields c) = Some r
         /\ l1 = [Clone u dest_dir; Checkout r dest_dir]
     | _ => exists dest mk l,
         (value (B "lead_directory_missing") (fields c) = None -> dest = sub)
         /\ (value (B "lead_directory_missing") (fields c) <> None -> dest = dest_dir)
         /\ (dir_at w [] dest = true -> mk = []) /\ (dir_at w [] dest = false -> mk = [Mkdir dest]) /\ l1 = mk ++ l
         /\ obtained w download sub (value (B "source_filename") (fields c)) (value (B "source_url") (fields c))
              (value (B "source_hash") (fields c)) dest mk l
     end).
  { destruct (wtyp c); [| |discriminate].
    - unfold handle_file in H1. rewrite !get_value in H1. unfold has in H1. rewrite get_value in H1.
      apply then_good in H1 as (mk & M1 & M2). destruct (obtained_good _ _ _ _ _ _ _ _ _ M2) as (l & -> & Ob).
      eexists. exists mk, l. split; [|split; [|split; [|split; [|split; [reflexivity|exact Ob]]]]].
      + intros ->. reflexivity.
      + intros N. destruct (value (B "lead_directory_missing") (fields c)); [reflexivity|congruence].
      + intros E. rewrite E in M1. congruence.
      + intros E. rewrite E in M1. unfold act in M1. cbn [app] in M1. congruence.
    - destruct download; [|discriminate]. cbn [negb] in H1. split; [reflexivity|]. unfold handle_git in H1. rewrite !get_value in H1.
      destruct (value (B "url") (fields c)) as [u|]; [|discriminate]. destruct (value (B "revision") (fields c)) as [r|]; [|discriminate].
      apply then_good in H1 as (g & G1 & G2). unfold act in G1, G2. exists u, r. split; [reflexivity|]. split; [reflexivity|].
      cbn [app] in G1. assert (g = [Clone u dest_dir]) by congruence. subst g. cbn [app] in G2. congruence. }
  split; [exact G|]. split; [exact A|].
  assert (N1 : forall p d, ~ In (Patch p d) l1).
  { intros p d I. destruct (wtyp c).
    - destruct G as (dest & mk & l & _ & _ & M1 & M2 & -> & Ob). apply in_app_or in I as [I|I]; [|exact (No _ _ _ _ _ _ Ob p d I)].
      destruct (dir_at w [] dest); [rewrite (M1 eq_refl) in I; exact I|rewrite (M2 eq_refl) in I]. destruct I as [I|[]]. discriminate.
    - destruct G as (_ & u & r & _ & _ & ->). destruct I as [I|[I|[]]]; discriminate.
    - discriminate. }
  assert (N2 : forall p d, ~ In (Patch p d) l2).
  { intros p d I. destruct (value (B "patch_directory") (fields c)); [exact (No _ _ _ _ _ _ A p d I)|].
    destruct (value (B "patch_filename") (fields c)); [exact (No _ _ _ _ _ _ A p d I)|]. subst l2. exact I. }
  intros p d. rewrite !in_app_iff. split; [intros [I|[I|I]]; [destruct (N1 p d I)|destruct (N2 p d I)|exact I]|].
  intros I. right. right. exact I.
Qed.
Print Assumptions C143_done.

(** a world without files in which everything works *)
Definition empty_world : world := mkWorld (fun _ _ => Some (B "b")) (fun _ _ => None) (fun _ _ => true) (fun _ _ => true).
Definition bare_world : world := mkWorld (fun _ _ => Some (B "b")) (fun _ _ => None) (fun _ _ => false) (fun _ _ => true).
Definition hash_b : bytes := B "3e23e8160039594a33894f6564e1b1348bbd7a0088d42c4acb73eeaed59c009d".

Example C143_ex :
  let c h := mkCtx TFile [(B "source_filename", B "foo.tar"); (B "source_url", B "https://x/foo.tar"); (B "source_hash", h)] TFile true false in
  wrap_handle bare_world (c hash_b) (B "/s/foo") (B "/s") [] true
    = ([Mkdir (B "/s"); Fetch (B "https://x/foo.tar"); Extract (B "b") (B "/s")], Good)
  /\ wrap_handle bare_world (c (B "00" ++ skipn 2 hash_b)) (B "/s/foo") (B "/s") [] true
    = ([Mkdir (B "/s"); Fetch (B "https://x/foo.tar")], Bad)
  /\ wrap_handle bare_world (c hash_b) (B "/s/foo") (B "/s") [] false = ([Mkdir (B "/s")], Bad)
  /\ hex hash_b /\ length hash_b = 64.
Proof.
  cbv zeta. split; [vm_compute; reflexivity|]. split; [vm_compute; reflexivity|]. split; [vm_compute; reflexivity|]. split; [|reflexivity].
  assert (A : forallb (fun c => existsb (fun n => match nth_error (B "0123456789abcdef") n with Some x => ceqb x c | None => false end) (seq 0 16)) hash_b = true)
    by (vm_compute; reflexivity).
  apply Forall_forall. intros c I. rewrite forallb_forall in A. specialize (A c I). apply existsb_exists in A as (n & _ & E).
  exists n. left. destruct (nth_error (B "0123456789abcdef") n); [|discriminate]. apply ceqb_eq in E. congruence.
Qed.

(** Texts that are no hashes are accepted: where the hash has 00, it may have any two characters
    that are no digits, signs or blanks. *)
Theorem C143_not_hex_refuted : forall d s1 s2 a b, (N.of_nat (length d) < 2 ^ 61)%N -> hex s1 -> hex s2 ->
  length (s1 ++ B "00" ++ s2) = 64 -> (exists n, length s1 = 2 * n) ->
  spells (s1 ++ B "00" ++ s2) (SHA256 (map N_of_ascii d)) ->
  xval a = None -> isspace a = false -> a <> "-"%char -> a <> "+"%char ->
  checksum d (s1 ++ [a; b] ++ s2) = true.
Proof.
  intros d s1 s2 a b L H1 H2 Ls (n & Ln) Sp Xa Ia Na Na'. unfold checksum.
  replace (length (s1 ++ [a; b] ++ s2)) with 64 by (rewrite <- Ls, !app_length; reflexivity).
  rewrite Nat.eqb_refl. cbn [negb]. rewrite sha_now by exact L.
  change (numbers d) with (map N_of_ascii d). revert Sp. generalize (SHA256 (map N_of_ascii d)). intros l. clear L Ls.
  revert s1 l H1 Ln. induction n as [|n IH]; intros s1 l H1 Ln Sp.
  - destruct s1; [|discriminate]. cbn [app] in *. change (B "00") with ["0"%char; "0"%char] in Sp. destruct l as [|h l]; [contradiction|]. cbn [app spells] in Sp.
    destruct Sp as ((x & y & Hx & Hy & E) & Sp). cbn [same_hash].
    assert (V : strtol16 [a; b] = 0%Z).
    { unfold strtol16. cbn [blanks]. rewrite Ia. destruct (ceqb_spec a "-"%char) as [|_]; [contradiction|].
      destruct (ceqb_spec a "+"%char) as [|_]; [contradiction|]. unfold prefixed. cbn [digits]. rewrite Xa. reflexivity. }
    rewrite V. pose proof (pair_value _ _ x y Hx Hy) as W. change (strtol16 ["0"%char; "0"%char] mod 256)%Z with 0%Z in W.
    replace (Z.of_N h) with 0%Z by lia. apply same_spells; assumption.
  - destruct s1 as [|c1 [|c2 s1]]; cbn [length] in Ln; try lia. destruct l as [|h l]; [contradiction|].
    cbn [app spells] in Sp. destruct Sp as ((x & y & Hx & Hy & E) & Sp). cbn [app same_hash].
    rewrite (pair_value _ _ x y Hx Hy). replace (Z.of_nat (16 * x + y) =? Z.of_N h)%Z with true by (symmetry; apply Z.eqb_eq; lia).
    inversion H1 as [|? ? _ H1']; subst. inversion H1' as [|? ? _ H1'']; subst. apply IH; [assumption|lia|exact Sp].
Qed.
Print Assumptions C143_not_hex_refuted.

Example C143_not_hex_ex : checksum (B "b") (B "3e23e816zz39594a33894f6564e1b1348bbd7a0088d42c4acb73eeaed59c009d") = true.
Proof. vm_compute. reflexivity. Qed.

(** A wrap-file need not name a source, but then a null pointer is followed. *)
Theorem C143_no_source_refuted : forall w c dest_dir sub junk download mb,
  wtyp c = TFile -> value (B "source_filename") (fields c) = None ->
  join_paths [dest_dir; B "meson.build"] = Some mb -> file_at w [] mb = None ->
  (forall h a, works w h a = true) ->
  exists h, wrap_handle w c dest_dir sub junk download = (h, Crash).
Proof.
  intros w c dest_dir sub junk download mb T V J F W. unfold wrap_handle.
  assert (E : path_join dest_dir (B "meson.build") = Some mb).
  { unfold join_paths in J. cbn [join_paths_from] in J. unfold path_join. destruct (path_push [] dest_dir) as [p|]; [|discriminate].
    destruct (path_push p (B "meson.build")); [exact J|discriminate]. }
  rewrite E, F, T. unfold handle_file. rewrite !get_value, V. unfold packagefiles, act.
  destruct (dir_at w [] _); [eexists; reflexivity|]. rewrite W. eexists. reflexivity.
Qed.
Print Assumptions C143_no_source_refuted.

Example C143_no_source_ex : exists c, wrap_parse [S "wrap-file"; K "wrap-file" "directory" "foo"] = Some c
  /\ wtyp c = TFile /\ value (B "source_filename") (fields c) = None
  /\ wrap_handle empty_world c (B "/s/foo") (B "/s") [] true = ([], Crash).
Proof. eexists. split; [vm_compute; reflexivity|]. repeat split; vm_compute; reflexivity. Qed.

(** ** C144 *)

(** The patches that are applied are those that are listed, if none but the first has a name of
    one character; what follows in memory is not read. *)
Theorem C144_names_partial : forall fs s junk, separated fs s -> Forall name_ok fs ->
  Forall (fun f => 2 <= length f) (tl fs) -> diff_names s junk = (fs, Good).
Proof.
  intros fs s junk H F L. unfold diff_names. apply (diff_listed fs s H F L) with (cur := []); [reflexivity|cbn; lia|discriminate|lia].
Qed.
Print Assumptions C144_names_partial.

Example C144_ex : separated [B "a.diff"; B "b/c.diff"; B "d."] (B "a.diff, b/c.diff,  d.")
  /\ Forall name_ok [B "a.diff"; B "b/c.diff"; B "d."] /\ Forall (fun f => 2 <= length f) (tl [B "a.diff"; B "b/c.diff"; B "d."]).
Proof.
  split; [|split].
  - apply (separated_more (B "a.diff") [B "b/c.diff"; B "d."] (B " ") (B "b/c.diff,  d.")).
    + constructor; [left; reflexivity|constructor].
    + apply (separated_more (B "b/c.diff") [B "d."] (B "  ") (B "d.")).
      * constructor; [left; reflexivity|]. constructor; [left; reflexivity|constructor].
      * apply separated_one.
  - assert (A : forall f c t, f = c :: t -> mem_char NUL f = false -> mem_char ","%char f = false ->
      ceqb c " "%char = false -> ceqb c CR = false -> ceqb c TAB = false -> name_ok f).
    { intros f c t E M1 M2 N1 N2 N3. split; [apply mem_char_not_In; exact M1|]. split; [apply mem_char_not_In; exact M2|].
      exists c, t. split; [exact E|]. apply ceqb_neq in N1, N2, N3. intros [H|[H|H]]; contradiction. }
    repeat (constructor; [eapply A; vm_compute; reflexivity|]). constructor.
  - repeat (constructor; [vm_compute; lia|]). constructor.
Qed.

(** They are applied in this order, after everything else, to the directory of the subproject. *)
Theorem C144_applied : forall w c dest_dir sub junk download h mb,
  join_paths [dest_dir; B "meson.build"] = Some mb -> file_at w [] mb = None ->
  (forall v, value (B "diff_files") (fields c) = Some v ->
     exists fs, separated fs v /\ Forall name_ok fs /\ Forall (fun f => 2 <= length f) (tl fs)) ->
  wrap_handle w c dest_dir sub junk download = (h, Good) ->
  exists h1 ps, h = h1 ++ map (fun p => Patch p dest_dir) ps /\ (forall p d, ~ In (Patch p d) h1)
  /\ match value (B "diff_files") (fields c) with
     | None => ps = []
     | Some v => exists fs dir, separated fs v /\ Forall name_ok fs /\ join_paths [sub; B "packagefiles"] = Some dir
         /\ map Some ps = map (fun f => join_paths [dir; f]) fs
     end.
Proof.
  intros w c dest_dir sub junk download h mb J F V H.
  unfold wrap_handle in H. rewrite <- join_two, J, F in H.
  apply then_good in H as (l1 & H1 & H2). destruct (patch_good _ _ _ _ _ _ _ _ H2) as (l2 & l3 & E2 & A & D1 & D2).
  assert (N : forall p d, ~ In (Patch p d) (l1 ++ l2)).
  { assert (St : steps (fun _ a => match a with Patch _ _ => False | _ => True end) [] l1).
    { change l1 with (fst (l1, Good)). rewrite <- H1.
      destruct (wtyp c); [| |apply steps_none].
      - unfold handle_file. apply steps_then.
        + destruct (dir_at w [] _); [apply steps_none|apply steps_one; exact I].
        + intros g Sg. apply (steps_more _ _ g _ Sg). apply pf_steps; intros; exact I.
      - destruct download; [|apply steps_none]. cbn [negb]. unfold handle_git.
        destruct (get (B "url") (fields c)); [|apply steps_none]. destruct (get (B "revision") (fields c)); [|apply steps_none].
        apply steps_then; [apply steps_one; exact I|]. intros g Sg. apply (steps_more _ _ g _ Sg). apply steps_one. exact I. }
    assert (S2 : forall name url hash dest g l, obtained w download sub name url hash dest g l -> forall p d, ~ In (Patch p d) l).
    { intros name url hash dest g l (n & s & _ & _ & [(d & _ & _ & ->)|[(_ & _ & ->)|(_ & _ & _ & u & d & _ & _ & _ & ->)]]) p q I; cbn in I;
        intuition discriminate. }
    intros p d I. apply in_app_or in I as [I|I].
    - destruct St as (t & -> & St). cbn [app] in I. apply in_split in I as (t1 & t2 & ->). exact (St t1 (Patch p d) t2 eq_refl).
    - destruct (value (B "patch_directory") (fields c)); [exact (S2 _ _ _ _ _ _ A p d I)|].
      destruct (value (B "patch_filename") (fields c)); [exact (S2 _ _ _ _ _ _ A p d I)|]. subst l2. exact I. }
  exists (l1 ++ l2). destruct (value (B "diff_files") (fields c)) as [v|] eqn:Ev.
  - destruct (V v eq_refl) as (fs & Sp & Fn & L2). destruct (D2 v eq_refl) as (fs' & ps & dir & Ed & Ej & -> & Em).
    rewrite (C144_names_partial fs v junk Sp Fn L2) in Ed. assert (fs' = fs) by congruence. subst fs'.
    exists ps. split; [rewrite E2; apply app_assoc|]. split; [exact N|]. exists fs, dir. repeat (split; [assumption|]). assumption.
  - exists []. rewrite (D1 eq_refl) in E2. cbn [map]. split; [rewrite E2, app_assoc; reflexivity|]. split; [exact N|reflexivity].
Qed.
Print Assumptions C144_applied.

Example C144_applied_ex :
  let c := mkCtx TGit [(B "url", B "u"); (B "revision", B "r"); (B "diff_files", B "a.diff, b.diff")] TGit true false in
  wrap_handle empty_world c (B "/s/foo") (B "/s") [] true
  = ([Clone (B "u") (B "/s/foo"); Checkout (B "r") (B "/s/foo"); Patch (B "/s/packagefiles/a.diff") (B "/s/foo");
      Patch (B "/s/packagefiles/b.diff") (B "/s/foo")], Good).
Proof. vm_compute. reflexivity. Qed.

(** The end of a later name of one character is not seen: it is taken for one with the next name,
    or the memory behind the value is read. *)
Theorem C144_one_character_refuted : forall f x g junk, name_ok f -> name_ok [x] -> name_ok g ->
  diff_names (f ++ ","%char :: x :: ","%char :: g) junk = ([f; x :: ","%char :: g], Good)
  /\ diff_names (f ++ ","%char :: [x]) junk = ([f], Beyond).
Proof.
  intros f x g junk (F0 & F1 & cf & tf & Ef & Nf) (X0 & X1 & cx & tx & Ex & Nx) (G0 & G1 & cg & tg & Eg & Ng).
  injection Ex as <- <-. destruct (split_last f ltac:(rewrite Ef; discriminate)) as (f' & a & ->). clear cf tf Ef Nf.
  assert (Xn : ceqb x NUL = false) by (apply ceqb_neq; intros ->; apply X0; left; reflexivity).
  assert (A : ~ In NUL f' /\ ~ In ","%char f' /\ a <> NUL /\ a <> ","%char).
  { split; [intros I; apply F0; apply in_or_app; left; exact I|]. split; [intros I; apply F1; apply in_or_app; left; exact I|].
    split; intros ->; [apply F0|apply F1]; apply in_or_app; right; left; reflexivity. }
  destruct A as (A1 & A2 & A3 & A4). unfold diff_names. split.
  - match goal with |- diff_loop ?n _ _ = _ => replace n with (length f' + Datatypes.S (length g + length junk + 5))
      by (rewrite !app_length; cbn [length]; lia) end.
    rewrite <- !app_assoc. cbn [app]. rewrite diff_chars by (assumption || right; reflexivity).
    change (ceqb ","%char NUL) with false. cbv zeta iota. rewrite skip_none by exact Nx. rewrite Xn. cbn [app].
    replace (length g + length junk + 5) with (Datatypes.S (length g + length junk + 4)) by lia.
    assert (E : diff_loop (Datatypes.S (length g + length junk + 4)) [x] (","%char :: g ++ NUL :: junk)
      = diff_loop (length g + length junk + 4) [x; ","%char] (g ++ NUL :: junk)).
    { rewrite Eg. cbn [app diff_loop]. change (ceqb ","%char NUL) with false. cbv iota.
      replace (ceqb cg ","%char) with false by (symmetry; apply ceqb_neq; intros ->; apply G1; rewrite Eg; left; reflexivity).
      replace (ceqb cg NUL) with false by (symmetry; apply ceqb_neq; intros ->; apply G0; rewrite Eg; left; reflexivity).
      reflexivity. }
    rewrite E. clear E. destruct (split_last g ltac:(rewrite Eg; discriminate)) as (g' & b & ->). clear cg tg Eg Ng.
    replace (length (g' ++ [b]) + length junk + 4) with (length g' + Datatypes.S (length junk + 4)) by (rewrite app_length; cbn [length]; lia).
    rewrite <- app_assoc. cbn [app]. rewrite diff_chars.
    + rewrite ceqb_refl. cbv zeta iota. rewrite <- app_assoc. reflexivity.
    + intros I. apply G0. apply in_or_app. left. exact I.
    + intros I. apply G1. apply in_or_app. left. exact I.
    + intros ->. apply G0. apply in_or_app. right. left. reflexivity.
    + left. reflexivity.
    + intros ->. apply G1. apply in_or_app. right. left. reflexivity.
  - match goal with |- diff_loop ?n _ _ = _ => replace n with (length f' + Datatypes.S (Datatypes.S (length junk + 3)))
      by (rewrite !app_length; cbn [length]; lia) end.
    rewrite <- !app_assoc. cbn [app]. rewrite diff_chars by (assumption || right; reflexivity).
    change (ceqb ","%char NUL) with false. cbv zeta iota. rewrite skip_none by exact Nx. rewrite Xn.
    cbn [diff_loop]. rewrite ceqb_refl. destruct junk; reflexivity.
Qed.
Print Assumptions C144_one_character_refuted.

Example C144_one_character_ex : name_ok (B "a.diff") /\ name_ok (B "b")
  /\ diff_names (B "a.diff,b,c.diff") [] = ([B "a.diff"; B "b,c.diff"], Good)
  /\ diff_names (B "a.diff,b") [] = ([B "a.diff"], Beyond) /\ diff_names [] [] = ([], Beyond).
Proof.
  assert (A : forall f c t, f = c :: t -> mem_char NUL f = false -> mem_char ","%char f = false ->
    ceqb c " "%char = false -> ceqb c CR = false -> ceqb c TAB = false -> name_ok f).
  { intros f c t E M1 M2 N1 N2 N3. split; [apply mem_char_not_In; exact M1|]. split; [apply mem_char_not_In; exact M2|].
    exists c, t. split; [exact E|]. apply ceqb_neq in N1, N2, N3. intros [H|[H|H]]; contradiction. }
  split; [eapply A; vm_compute; reflexivity|]. split; [eapply A; vm_compute; reflexivity|]. repeat split; vm_compute; reflexivity.
Qed.
