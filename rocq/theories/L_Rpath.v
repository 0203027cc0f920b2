(** Lemmas about the rpath fixer. *)
From Coq Require Import List Arith NArith Lia.
From Verif Require Import Base M_Path S_Path L_Path M_Rpath S_Rpath.
Import ListNotations.
Local Arguments B _ : simpl never.

(** ** lists *)
Lemma same_refl : forall a b s, same_outside a b s s.
Proof. intros a b s. split; [reflexivity|]. split; reflexivity. Qed.

Lemma same_trans : forall a b s1 s2 s3, same_outside a b s1 s2 -> same_outside a b s2 s3 -> same_outside a b s1 s3.
Proof. intros a b s1 s2 s3 (L1 & F1 & K1) (L2 & F2 & K2). split; [congruence|]. split; congruence. Qed.

Lemma firstn_le : forall (a b : nat) (s t : bytes), a <= b -> firstn b s = firstn b t -> firstn a s = firstn a t.
Proof.
  intros a b s t L E. rewrite <- (Nat.min_l a b L), <- !firstn_firstn, E. reflexivity.
Qed.

Lemma skipn_add : forall (a b : nat) (s : bytes), skipn (a + b) s = skipn b (skipn a s).
Proof. induction a; intros b [|x s]; cbn; [reflexivity|reflexivity|now rewrite skipn_nil|apply IHa]. Qed.

Lemma skipn_le : forall (a b : nat) (s t : bytes), a <= b -> skipn a s = skipn a t -> skipn b s = skipn b t.
Proof.
  intros a b s t L E. replace b with (a + (b - a)) by lia. rewrite !skipn_add, E. reflexivity.
Qed.

Lemma same_wider : forall a b a' b' s t, a' <= a -> b <= b' -> same_outside a b s t -> same_outside a' b' s t.
Proof.
  intros a b a' b' s t La Lb (L & F & K). split; [exact L|].
  split; [exact (firstn_le a' a _ _ La F)|exact (skipn_le b b' _ _ Lb K)].
Qed.

(** ** reading and writing *)
Lemma read_1 : forall p c q, read 1 (mkIo (p ++ c :: q) (length p)) = Done ([c], mkIo (p ++ c :: q) (length p + 1)).
Proof.
  intros p c q. unfold read. cbn [data pos]. rewrite app_length. cbn [length].
  replace (length p + 1 <=? length p + S (length q)) with true by (symmetry; apply Nat.leb_le; lia).
  rewrite skipn_app, skipn_all, Nat.sub_diag. reflexivity.
Qed.

Lemma write_in : forall d k s, k + length s <= length d ->
  write s (mkIo d k) = mkIo (firstn k d ++ s ++ skipn (k + length s) d) (k + length s).
Proof.
  intros d k [|c s] L; unfold write; cbn [data pos].
  - cbn. rewrite Nat.add_0_r, firstn_skipn. reflexivity.
  - cbn [length] in *. replace (k - length d) with 0 by lia. cbn [repeat]. rewrite app_nil_r. reflexivity.
Qed.

Lemma write_same : forall d k s a b, a <= k -> k + length s <= b -> b <= length d ->
  same_outside a b d (data (write s (mkIo d k))).
Proof.
  intros d k s a b La Lb Ld. rewrite write_in by lia. cbn [data].
  assert (Lk : length (firstn k d) = k) by (apply firstn_length_le; lia).
  split; [|split].
  - rewrite !app_length, skipn_length, Lk. lia.
  - rewrite firstn_app, firstn_firstn, Lk. replace (a - k) with 0 by lia. cbn [firstn].
    rewrite app_nil_r. f_equal. lia.
  - rewrite skipn_app, Lk, skipn_all2 by lia. cbn [app].
    rewrite skipn_app, skipn_all2 by lia. cbn [app]. rewrite <- skipn_add. f_equal. lia.
Qed.

Lemma write_length : forall d k s, k + length s <= length d -> length (data (write s (mkIo d k))) = length d.
Proof. intros d k s L. destruct (write_same d k s k (k + length s) ltac:(lia) ltac:(lia) L) as (E & _). exact E. Qed.

Lemma write_pos : forall d k s, k + length s <= length d -> pos (write s (mkIo d k)) = k + length s.
Proof. intros d k s L. rewrite write_in by exact L. reflexivity. Qed.

Lemma write_first : forall d k s, k + length s <= length d ->
  firstn (k + length s) (data (write s (mkIo d k))) = firstn k d ++ s.
Proof.
  intros d k s L. rewrite write_in by exact L. cbn [data].
  assert (Lk : length (firstn k d) = k) by (apply firstn_length_le; lia).
  rewrite app_assoc, firstn_app, app_length, Lk, Nat.sub_diag. cbn [firstn]. rewrite app_nil_r.
  apply firstn_all2. rewrite app_length. lia.
Qed.

(** ** the loop *)
Lemma loop_chars : forall e fuel root p q acc cu cp m ps cl,
  ~ In NUL e -> ~ In COLON e -> length acc + length e <= rpath_size ->
  paths_loop (length e + fuel) root (mkIo (p ++ e ++ q) (length p)) (mkRp acc cu cp m ps cl)
  = paths_loop fuel root (mkIo (p ++ e ++ q) (length p + length e)) (mkRp (acc ++ e) (cu + length e) cp m ps cl).
Proof.
  induction e as [|c e IH]; intros fuel root p q acc cu cp m ps cl N0 N1 L.
  - cbn [length app plus]. rewrite !Nat.add_0_r, app_nil_r. reflexivity.
  - cbn [length plus paths_loop app]. cbn [length] in L. rewrite read_1. cbn [obind hd rpath cur_off copy_to modified preserve_separator cleared].
    destruct (ceqb_spec c NUL) as [->|_]; [destruct N0; left; reflexivity|].
    destruct (ceqb_spec c ":"%char) as [->|_]; [destruct N1; left; reflexivity|]. cbn [orb].
    replace (rpath_size <=? length acc) with false by (symmetry; apply Nat.leb_gt; lia).
    replace (length p + 1) with (length (p ++ [c])) by (rewrite app_length; reflexivity).
    replace (p ++ c :: e ++ q) with ((p ++ [c]) ++ e ++ q) by (rewrite <- app_assoc; reflexivity).
    rewrite IH; [|intros X; apply N0; right; exact X|intros X; apply N1; right; exact X
                 |rewrite app_length; cbn [length]; lia].
    rewrite app_length, <- !app_assoc. cbn [length app].
    replace (length p + 1 + length e) with (length p + S (length e)) by lia.
    replace (S cu + length e) with (cu + S (length e)) by lia. reflexivity.
Qed.

Lemma loop_entry : forall e c fuel root p q cu cp m ps cl, entry e -> c = NUL \/ c = COLON ->
  paths_loop (length e + S fuel) root (mkIo (p ++ e ++ c :: q) (length p)) (mkRp [] cu cp m ps cl)
  = obind (end_of_path root c (mkIo (p ++ e ++ c :: q) (length p + length e + 1)) (mkRp e (cu + length e) cp m ps cl))
      (fun '(f, x) => if ceqb c NUL then Done (f, x)
           else paths_loop fuel root f (mkRp (rpath x) (S (cur_off x)) (copy_to x) (modified x) (preserve_separator x) (cleared x))).
Proof.
  intros e c fuel root p q cu cp m ps cl (N0 & N1 & L) C.
  assert (L1 : length e < rpath_size) by (unfold rpath_size; lia).
  rewrite loop_chars by (cbn [length]; try assumption; lia). cbn [paths_loop app].
  replace (length p + length e) with (length (p ++ e)) by apply app_length.
  replace (p ++ e ++ c :: q) with ((p ++ e) ++ c :: q) by (rewrite <- app_assoc; reflexivity).
  rewrite read_1. cbn [obind hd].
  replace (ceqb c NUL || ceqb c ":"%char) with true by (destruct C as [-> | ->]; reflexivity).
  reflexivity.
Qed.

(** ** the end of an entry *)
Lemma root_sub : forall root e, is_abs root = true -> exists b, path_is_subpath root e = Some b
  /\ (stays root e -> b || (length e =? 0) = false) /\ (goes root e -> b || (length e =? 0) = true).
Proof.
  intros root e A. assert (Nr : root <> []) by (intros ->; discriminate).
  destruct e as [|c e].
  - assert (T : exists b, path_is_subpath root [] = Some b).
    { unfold path_is_subpath. destruct root; [congruence|]. rewrite path_copy_nonempty by exact Nr.
      eexists. reflexivity. }
    destruct T as (b & E). exists b. split; [exact E|]. cbn. split; [intros (X & _); congruence|intros _; apply Bool.orb_true_r].
  - destruct (path_is_subpath_spec root (c :: e) Nr ltac:(discriminate) (or_introl A)) as (b & E & S1).
    exists b. split; [exact E|]. cbn [length Nat.eqb]. rewrite Bool.orb_false_r. split.
    + intros (_ & N0). destruct b; [|reflexivity]. destruct N0. apply S1. reflexivity.
    + intros [X|X]; [discriminate|]. apply S1. exact X.
Qed.

Lemma size_checks : forall e, entry e -> (rpath_size <? length e) = false /\ (length e =? rpath_size) = false.
Proof.
  intros e (_ & _ & L). assert (L1 : length e < rpath_size) by (unfold rpath_size; lia).
  split; [apply Nat.ltb_ge; lia|apply Nat.eqb_neq; lia].
Qed.

Lemma end_goes : forall root c f e cu cp m ps cl, is_abs root = true -> entry e -> goes root e ->
  end_of_path root c f (mkRp e cu cp m ps cl) = Done (f, mkRp [] cu cp true ps cl).
Proof.
  intros root c f e cu cp m ps cl A En G. destruct (size_checks e En) as (C1 & C2).
  destruct (root_sub root e A) as (b & E & _ & Tg).
  unfold end_of_path. cbn [rpath]. rewrite C1, C2, E, (Tg G). reflexivity.
Qed.

Lemma end_stays : forall root c f e cu cp m ps cl, is_abs root = true -> entry e -> stays root e ->
  end_of_path root c f (mkRp e cu cp m ps cl)
  = Done (if m then seek (cu + 1) (write [c] (write e (seek (cp + (if ps then 1 else 0)) f))) else f,
          mkRp [] cu (cp + length e) m (ceqb c ":"%char) false).
Proof.
  intros root c f e cu cp m ps cl A En G. destruct (size_checks e En) as (C1 & C2).
  destruct (root_sub root e A) as (b & E & Ts & _).
  unfold end_of_path. cbn [rpath]. rewrite C1, C2, E, (Ts G). reflexivity.
Qed.

(** writing an entry and what ends it *)
Lemma write_both : forall d k e c, k + length e + 1 <= length d ->
  write [c] (write e (mkIo d k)) = write (e ++ [c]) (mkIo d k).
Proof.
  intros d k e c L. rewrite (write_in d k (e ++ [c])) by (rewrite app_length; cbn; lia).
  rewrite (write_in d k e) by lia.
  assert (Lk : length (firstn k d) = k) by (apply firstn_length_le; lia).
  rewrite write_in.
  2:{ rewrite !app_length, skipn_length, Lk. cbn [length]. lia. }
  rewrite app_length. cbn [length]. rewrite Nat.add_assoc. f_equal.
  set (u := firstn k d) in *. set (v := skipn (k + length e) d).
  assert (Le : length (u ++ e) = k + length e) by (rewrite app_length; lia).
  rewrite (app_assoc u e v), <- Le, skipn_add, skipn_app, skipn_all, Nat.sub_diag.
  rewrite firstn_app, firstn_all, Nat.sub_diag. cbn [firstn skipn app]. rewrite app_nil_r, Le, <- !app_assoc.
  cbn [app]. unfold v. rewrite (skipn_add (k + length e) 1). reflexivity.
Qed.

Lemma split_at : forall (d : bytes) n, n <= length d -> length (firstn n d) = n.
Proof. intros d n L. apply firstn_length_le. exact L. Qed.

Lemma list_cons : forall e e2 es, list_of (e :: e2 :: es) = e ++ COLON :: list_of (e2 :: es).
Proof. reflexivity. Qed.
Lemma list_one : forall e, list_of [e] = e.
Proof. intros e. reflexivity. Qed.

Definition kept_length (ks : list bytes) : nat := fold_right (fun k n => length k + n) 0 ks.

(** All entries: nothing outside of the list changes, and what is left is known. *)
Lemma loop_frame : forall (es : list bytes) (fuel : nat) (root d p post : bytes) (cu cp : nat) (m ps cl : bool),
  is_abs root = true -> Forall entry es -> Forall (fun e => stays root e \/ goes root e) es -> es <> [] ->
  d = p ++ list_of es ++ NUL :: post -> cu = length p ->
  forall a, a <= cp -> cp + (if ps then 1 else 0) <= length p -> a <= length p ->
  length (list_of es) < fuel ->
  exists d' cp' cu' m' ps' cl',
    paths_loop fuel root (mkIo d (length p)) (mkRp [] cu cp m ps cl)
    = Done (mkIo d' (length p + length (list_of es) + 1), mkRp [] cu' cp' m' ps' cl')
    /\ same_outside a (length p + length (list_of es) + 1) d d'
    /\ a <= cp' /\ cp' < length p + length (list_of es) + 1
    /\ (cl' = true <-> cl = true /\ Forall (goes root) es).
Proof.
  induction es as [|e es IH]; intros fuel root d p post cu cp m ps cl A En Sg Ne Ed Ecu a La Lc Lp Lf; [congruence|].
  inversion En as [|? ? En1 En2]; subst. inversion Sg as [|? ? Sg1 Sg2]; subst.
  destruct es as [|e2 es].
  - rewrite list_one in *. replace fuel with (length e + S (fuel - length e - 1)) by lia.
    rewrite loop_entry by (try exact En1; left; reflexivity).
    destruct Sg1 as [St|Go].
    + rewrite end_stays by assumption. cbn [obind]. rewrite (ceqb_refl NUL).
      set (d := p ++ e ++ NUL :: post) in *.
      assert (Ld : length p + length e + 1 <= length d) by (unfold d; rewrite !app_length; cbn [length]; lia).
      destruct m.
      * unfold seek. cbn [data]. set (k := cp + (if ps then 1 else 0)) in *. rewrite write_both by lia.
        pose proof (write_same d k (e ++ [NUL]) a (length p + length e + 1) ltac:(unfold k; destruct ps; lia)
          ltac:(rewrite app_length; cbn [length]; lia) Ld) as Sm.
        eexists _, _, _, _, _, _. split; [reflexivity|]. split; [exact Sm|].
        split; [lia|]. split; [destruct ps; unfold k in *; lia|].
        split; [discriminate|]. intros (_ & X). inversion X as [|? ? G _]; subst. destruct St as (N0 & N1), G; contradiction.
      * eexists _, _, _, _, _, _. split; [reflexivity|]. split; [apply same_refl|].
        split; [lia|]. split; [destruct ps; lia|].
        split; [discriminate|]. intros (_ & X). inversion X as [|? ? G _]; subst. destruct St as (N0 & N1), G; contradiction.
    + rewrite end_goes by assumption. cbn [obind]. rewrite (ceqb_refl NUL).
      eexists _, _, _, _, _, _. split; [reflexivity|]. split; [apply same_refl|].
      split; [lia|]. split; [destruct ps; lia|].
      split; [intros ->; split; [reflexivity|constructor; [exact Go|constructor]]|tauto].
  - rewrite list_cons in *. rewrite app_length in *. cbn [length] in *.
    rewrite <- app_assoc in *. cbn [app] in *.
    set (r := list_of (e2 :: es)) in *. set (d := p ++ e ++ COLON :: r ++ NUL :: post) in *.
    assert (Ld : length p + length e + 1 <= length d) by (unfold d; rewrite !app_length; cbn [length]; lia).
    assert (Ed : skipn (length p + length e + 1) d = r ++ NUL :: post).
    { unfold d. rewrite <- Nat.add_assoc, skipn_add, skipn_app, skipn_all, Nat.sub_diag. cbn [app skipn].
      rewrite skipn_add, skipn_app, skipn_all, Nat.sub_diag. reflexivity. }
    replace fuel with (length e + S (fuel - length e - 1)) by lia.
    unfold d at 1. rewrite loop_entry by (try exact En1; right; reflexivity). fold d.
    assert (Next : forall (d1 : bytes) (cp1 : nat) (m1 ps1 cl1 : bool), same_outside a (length p + length e + 1) d d1 ->
      a <= cp1 -> cp1 + (if ps1 then 1 else 0) <= length p + length e + 1 ->
      (cl1 = true <-> cl = true /\ goes root e) ->
      exists d' cp' cu' m' ps' cl',
        paths_loop (fuel - length e - 1) root (mkIo d1 (length p + length e + 1))
          (mkRp [] (S (length p + length e)) cp1 m1 ps1 cl1)
        = Done (mkIo d' (length p + (length e + S (length r)) + 1), mkRp [] cu' cp' m' ps' cl')
        /\ same_outside a (length p + (length e + S (length r)) + 1) d d'
        /\ a <= cp' /\ cp' < length p + (length e + S (length r)) + 1
        /\ (cl' = true <-> cl = true /\ Forall (goes root) (e :: e2 :: es))).
    { intros d1 cp1 m1 ps1 cl1 Sm La1 Lc1 Cl1. pose proof Sm as (Ls & Fs & Ks).
      assert (P1 : exists p1, length p1 = length p + length e + 1 /\ d1 = p1 ++ r ++ NUL :: post).
      { exists (firstn (length p + length e + 1) d1). split; [apply split_at; lia|].
        rewrite <- Ed, <- Ks. symmetry. apply firstn_skipn. }
      destruct P1 as (p1 & Lp1 & E1).
      destruct (IH (fuel - length e - 1) root d1 p1 post (S (length p + length e)) cp1 m1 ps1 cl1 A En2 Sg2
                  ltac:(discriminate) E1 ltac:(lia) a La1 ltac:(lia) ltac:(lia) ltac:(fold r; lia))
        as (d' & cp' & cu' & m' & ps' & cl' & E2 & Sm2 & L2 & L3 & Cl2).
      fold r in E2, Sm2, L3. rewrite Lp1 in E2, Sm2, L3.
      replace (length p + (length e + S (length r)) + 1) with (length p + length e + 1 + length r + 1) by lia.
      exists d', cp', cu', m', ps', cl'. split; [exact E2|]. split.
      { apply (same_trans _ _ _ d1); [|exact Sm2]. apply (same_wider a (length p + length e + 1)); [lia|lia|exact Sm]. }
      split; [exact L2|]. split; [exact L3|]. rewrite Cl2, Cl1. split.
      - intros ((-> & G) & F). split; [reflexivity|]. constructor; assumption.
      - intros (-> & F). inversion F; subst. repeat split; assumption. }
    destruct Sg1 as [St|Go].
    + rewrite end_stays by assumption. cbn [obind]. change (ceqb COLON NUL) with false. change (ceqb COLON ":"%char) with true.
      cbn [rpath cur_off copy_to modified preserve_separator cleared].
      assert (Cl1 : false = true <-> cl = true /\ goes root e).
      { split; [discriminate|]. intros (_ & G). destruct St as (N0 & N1), G; contradiction. }
      destruct m.
      * unfold seek. cbn [data]. set (k := cp + (if ps then 1 else 0)) in *. rewrite write_both by lia.
        apply Next; [|lia|unfold k in *; destruct ps; lia|exact Cl1].
        apply write_same; [unfold k; destruct ps; lia|rewrite app_length; cbn [length]; lia|exact Ld].
      * apply Next; [apply same_refl|lia|destruct ps; lia|exact Cl1].
    + rewrite end_goes by assumption. cbn [obind]. change (ceqb COLON NUL) with false.
      cbn [rpath cur_off copy_to modified preserve_separator cleared].
      apply Next; [apply same_refl|lia|lia|tauto].
Qed.

(** ** entries that go leave everything as it is *)
Lemma loop_goes : forall (g : list bytes) (fuel : nat) (root p q : bytes) (cp : nat) (m ps cl : bool),
  is_abs root = true -> Forall entry g -> Forall (goes root) g ->
  let pg := concat (map (fun e => e ++ [COLON]) g) in
  paths_loop (length pg + fuel) root (mkIo (p ++ pg ++ q) (length p)) (mkRp [] (length p) cp m ps cl)
  = paths_loop fuel root (mkIo (p ++ pg ++ q) (length p + length pg))
      (mkRp [] (length p + length pg) cp (match g with [] => m | _ => true end) ps cl).
Proof.
  induction g as [|e g IH]; intros fuel root p q cp m ps cl A En G; cbv zeta.
  - cbn. rewrite Nat.add_0_r. reflexivity.
  - inversion En as [|? ? En1 En2]; subst. inversion G as [|? ? G1 G2]; subst. cbn [map concat].
    set (pg := concat (map (fun e => e ++ [COLON]) g)) in *.
    replace (length ((e ++ [COLON]) ++ pg) + fuel) with (length e + S (length pg + fuel)) by (rewrite !app_length; cbn; lia).
    replace (p ++ ((e ++ [COLON]) ++ pg) ++ q) with (p ++ e ++ COLON :: pg ++ q) by (rewrite <- !app_assoc; reflexivity).
    rewrite loop_entry by (try exact En1; right; reflexivity). rewrite end_goes by assumption.
    cbn [obind]. change (ceqb COLON NUL) with false. cbn [rpath cur_off copy_to modified preserve_separator cleared].
    replace (p ++ e ++ COLON :: pg ++ q) with ((p ++ e ++ [COLON]) ++ pg ++ q) by (rewrite <- !app_assoc; reflexivity).
    specialize (IH fuel root (p ++ e ++ [COLON]) q cp true ps cl A En2 G2). cbv zeta in IH. fold pg in IH.
    replace (length (p ++ e ++ [COLON])) with (length p + length e + 1) in IH by (rewrite !app_length; cbn; lia).
    replace (S (length p + length e)) with (length p + length e + 1) by lia. rewrite IH.
    replace (length p + length e + 1 + length pg) with (length p + length ((e ++ [COLON]) ++ pg)) by (rewrite !app_length; cbn; lia).
    destruct g; reflexivity.
Qed.

Lemma list_split : forall g k r, list_of (g ++ k :: r) = concat (map (fun e => e ++ [COLON]) g) ++ list_of (k :: r).
Proof.
  induction g as [|e g IH]; intros k r; [reflexivity|]. cbn [app map concat].
  assert (E : g ++ k :: r <> []) by (destruct g; discriminate).
  destruct (g ++ k :: r) as [|x l] eqn:El; [congruence|]. rewrite list_cons, <- El, IH, <- !app_assoc. reflexivity.
Qed.

(** the last of them *)
Lemma loop_all_go : forall (g : list bytes) (fuel : nat) (root p post : bytes) (cp : nat) (m ps cl : bool),
  is_abs root = true -> Forall entry g -> Forall (goes root) g -> g <> [] -> length (list_of g) < fuel ->
  exists cu, paths_loop fuel root (mkIo (p ++ list_of g ++ NUL :: post) (length p)) (mkRp [] (length p) cp m ps cl)
  = Done (mkIo (p ++ list_of g ++ NUL :: post) (length p + length (list_of g) + 1), mkRp [] cu cp true ps cl).
Proof.
  intros g fuel root p post cp m ps cl A En G Ne L.
  destruct (exists_last Ne) as (g1 & e & ->). rewrite list_split, list_one in *.
  apply Forall_app in En as (En1 & En2). apply Forall_app in G as (G1 & G2).
  inversion En2 as [|? ? En3 _]; subst. inversion G2 as [|? ? G3 _]; subst.
  set (pg := concat (map (fun e => e ++ [COLON]) g1)) in *. rewrite app_length in *.
  replace fuel with (length pg + (length e + S (fuel - length pg - length e - 1))) by lia.
  rewrite <- !app_assoc. unfold pg at 1 2. rewrite loop_goes by assumption. fold pg.
  replace (p ++ pg ++ e ++ NUL :: post) with ((p ++ pg) ++ e ++ NUL :: post) by (rewrite <- app_assoc; reflexivity).
  replace (length p + length pg) with (length (p ++ pg)) by apply app_length.
  rewrite loop_entry by (try exact En3; left; reflexivity). rewrite end_goes by assumption.
  cbn [obind]. rewrite (ceqb_refl NUL). rewrite app_length.
  eexists. f_equal. f_equal. f_equal. lia.
Qed.

(** ** one entry stays *)
Lemma loop_one : forall (g1 g2 : list bytes) (k : bytes) (fuel : nat) (root pre post : bytes),
  is_abs root = true -> Forall entry (g1 ++ k :: g2) -> Forall (goes root) g1 -> Forall (goes root) g2 ->
  stays root k -> length (list_of (g1 ++ k :: g2)) < fuel ->
  exists f' cu m ps,
    paths_loop fuel root (mkIo (pre ++ list_of (g1 ++ k :: g2) ++ NUL :: post) (length pre))
      (mkRp [] (length pre) (length pre) false false true)
    = Done (f', mkRp [] cu (length pre + length k) m ps false)
    /\ firstn (length pre + length k) (data f') = pre ++ k.
Proof.
  intros g1 g2 k fuel root pre post A En G1 G2 St L.
  apply Forall_app in En as (En1 & En2). inversion En2 as [|? ? En3 En4]; subst.
  rewrite list_split in *. set (pg := concat (map (fun e => e ++ [COLON]) g1)) in *.
  rewrite app_length in L.
  replace fuel with (length pg + (fuel - length pg)) by lia. rewrite <- app_assoc.
  unfold pg at 1 2. rewrite loop_goes by assumption. fold pg.
  set (m := match g1 with [] => false | _ => true end). set (fuel1 := fuel - length pg) in *.
  (* what follows the entry *)
  assert (Q : exists c q, list_of (k :: g2) ++ NUL :: post = k ++ c :: q /\ (c = NUL \/ c = COLON)
     /\ (c = NUL -> g2 = []) /\ (c = COLON -> g2 <> [] /\ q = list_of g2 ++ NUL :: post
            /\ length k + 1 + length (list_of g2) < fuel1) /\ length k < fuel1).
  { destruct g2 as [|e g2].
    - exists NUL, post. rewrite list_one in *. split; [reflexivity|]. split; [left; reflexivity|].
      split; [reflexivity|]. split; [discriminate|]. unfold fuel1. lia.
    - rewrite list_cons in *. rewrite app_length in L. cbn [length] in L.
      exists COLON, (list_of (e :: g2) ++ NUL :: post). rewrite <- app_assoc. split; [reflexivity|].
      split; [right; reflexivity|]. split; [discriminate|]. split; [|unfold fuel1; lia].
      intros _. split; [discriminate|]. split; [reflexivity|]. unfold fuel1. lia. }
  destruct Q as (c & q & Eq & C & C0 & C1 & Lf). rewrite Eq.
  replace (pre ++ pg ++ k ++ c :: q) with ((pre ++ pg) ++ k ++ c :: q) by (rewrite <- app_assoc; reflexivity).
  replace (length pre + length pg) with (length (pre ++ pg)) by apply app_length.
  replace fuel1 with (length k + S (fuel1 - length k - 1)) by lia.
  rewrite loop_entry by assumption. rewrite end_stays by assumption. cbn [obind].
  set (d := (pre ++ pg) ++ k ++ c :: q). set (n := length (pre ++ pg) + length k + 1).
  assert (Ld : n <= length d) by (unfold n, d; rewrite (app_length (pre ++ pg)), (app_length k); cbn [length]; lia).
  assert (Ek : skipn n d = q).
  { unfold n, d. rewrite <- Nat.add_assoc, skipn_add, skipn_app, skipn_all, Nat.sub_diag. cbn [app skipn].
    rewrite skipn_add, skipn_app, skipn_all, Nat.sub_diag. reflexivity. }
  assert (Lpre : length pre <= length (pre ++ pg)) by (rewrite app_length; lia).
  assert (F : exists d1, (if m then seek n
       (write [c] (write k (seek (length pre + 0) (mkIo d n)))) else mkIo d n) = mkIo d1 n
     /\ firstn (length pre + length k) d1 = pre ++ k /\ skipn n d1 = q /\ length d1 = length d).
  { unfold m. destruct g1 as [|e0 g1].
    - exists d. split; [reflexivity|]. split; [|split; [exact Ek|reflexivity]]. unfold d, pg. cbn [map concat].
      rewrite app_nil_r, firstn_app_2, firstn_app, firstn_all, Nat.sub_diag. cbn [firstn].
      rewrite app_nil_r. reflexivity.
    - unfold seek. cbn [data]. rewrite Nat.add_0_r, write_both by (fold d; unfold n in Ld; lia).
      assert (Lw : length pre + length (k ++ [c]) <= n) by (rewrite app_length; unfold n; cbn [length]; lia).
      eexists. split; [reflexivity|].
      pose proof (write_same d (length pre) (k ++ [c]) 0 n ltac:(lia) Lw Ld) as (S1 & _ & S3).
      split; [|split; [rewrite S3; exact Ek|exact S1]].
      pose proof (write_first d (length pre) (k ++ [c]) ltac:(lia)) as W.
      assert (Fp : firstn (length pre) d = pre).
      { unfold d. rewrite <- !app_assoc, firstn_app, firstn_all, Nat.sub_diag. cbn [firstn]. apply app_nil_r. }
      rewrite Fp in W.
      rewrite <- (Nat.min_l (length pre + length k) (length pre + length (k ++ [c]))) by (rewrite app_length; lia).
      rewrite <- firstn_firstn, W, firstn_app_2, firstn_app, firstn_all, Nat.sub_diag. cbn [firstn].
      rewrite app_nil_r. reflexivity. }
  destruct F as (d1 & E1 & F1 & K1 & L1). rewrite E1. clear E1.
  cbn [rpath cur_off copy_to modified preserve_separator cleared].
  destruct C as [Ec|Ec]; rewrite Ec in *.
  - rewrite (ceqb_refl NUL). eexists _, _, _, _. split; [reflexivity|]. exact F1.
  - change (ceqb COLON NUL) with false. destruct (C1 eq_refl) as (Ne & Q & Lq).
    assert (P1 : exists p1, length p1 = n /\ d1 = p1 ++ list_of g2 ++ NUL :: post).
    { exists (firstn n d1). split; [apply split_at; lia|]. rewrite <- Q, <- K1. symmetry. apply firstn_skipn. }
    destruct P1 as (p1 & Lp1 & Ed1). rewrite Ed1.
    destruct (loop_all_go g2 (fuel1 - length k - 1) root p1 post (length pre + length k) m (ceqb COLON ":"%char) false
                A En4 G2 Ne ltac:(lia)) as (cu & X).
    replace (S (length (pre ++ pg) + length k)) with n by (unfold n; lia).
    rewrite Lp1 in X. rewrite X. eexists _, _, _, _. split; [reflexivity|]. cbn [data]. rewrite <- Ed1. exact F1.
Qed.

(** ** whatever the file holds *)
Lemma read_bound : forall n f b f', read n f = Done (b, f') ->
  data f' = data f /\ length b = n /\ (0 < n -> pos f' = pos f + n /\ pos f + n <= length (data f)).
Proof.
  intros [|n] f b f' H; unfold read in H.
  - injection H as <- <-. repeat split; lia.
  - destruct (pos f + S n <=? length (data f)) eqn:E; [|discriminate]. apply Nat.leb_le in E.
    assert (Hb : b = firstn (S n) (skipn (pos f) (data f))) by congruence.
    assert (Hf : f' = mkIo (data f) (pos f + S n)) by congruence. clear H. subst f'. cbn [data pos].
    split; [reflexivity|]. split; [|intros _; split; [reflexivity|exact E]].
    rewrite Hb, firstn_length_le; [reflexivity|]. rewrite skipn_length. lia.
Qed.

Lemma loop_size : forall fuel root f x f' x', paths_loop fuel root f x = Done (f', x') ->
  pos f = cur_off x -> copy_to x + (if preserve_separator x then 1 else 0) + length (rpath x) <= cur_off x ->
  length (data f') = length (data f) /\ copy_to x' < length (data f).
Proof.
  induction fuel as [|fuel IH]; intros root f x f' x' H P L; [discriminate|]. cbn [paths_loop] in H.
  destruct (read 1 f) as [[s f1]| | | |] eqn:R; try discriminate. cbn [obind] in H.
  destruct (read_bound _ _ _ _ R) as (D1 & _ & R1). destruct (R1 ltac:(lia)) as (P1 & Lf). clear R1.
  destruct (ceqb (hd NUL s) NUL || ceqb (hd NUL s) ":"%char)%bool.
  - destruct (end_of_path root (hd NUL s) f1 x) as [[f2 x2]| | | |] eqn:E; try discriminate. cbn [obind] in H.
    assert (Q : length (data f2) = length (data f) /\ pos f2 = S (cur_off x) /\ cur_off x2 = cur_off x /\ rpath x2 = []
       /\ copy_to x2 + (if preserve_separator x2 then 1 else 0) <= S (cur_off x) /\ copy_to x2 <= cur_off x).
    { unfold end_of_path in E. destruct (rpath_size <? length (rpath x)); [discriminate|].
      destruct (length (rpath x) =? rpath_size); [discriminate|].
      destruct (path_is_subpath root (rpath x)) as [b|]; [|discriminate].
      destruct (b || (length (rpath x) =? 0))%bool.
      - injection E as <- <-. cbn [cur_off rpath copy_to preserve_separator]. rewrite D1, P1.
        repeat split; try lia; destruct (preserve_separator x); lia.
      - injection E as <- <-. cbn [cur_off rpath copy_to preserve_separator].
        set (k := copy_to x + (if preserve_separator x then 1 else 0)) in *.
        assert (Sq : forall b : bool, copy_to x + length (rpath x) + (if b then 1 else 0) <= S (cur_off x))
          by (intros []; unfold k in L; lia).
        split; [|split; [|split; [reflexivity|split; [reflexivity|split; [apply Sq|unfold k in L; lia]]]]].
        + destruct (modified x); [|rewrite D1; reflexivity]. unfold seek.
          transitivity (length (data (write [hd NUL s] (write (rpath x) (mkIo (data f1) k))))); [reflexivity|].
          rewrite write_both by (rewrite D1; lia).
          rewrite write_length by (rewrite D1, app_length; cbn [length]; lia). rewrite D1. reflexivity.
        + destruct (modified x); [unfold seek; cbn [pos]; lia|lia]. }
    destruct Q as (Q1 & Q2 & Q3 & Q4 & Q5 & Q6).
    destruct (ceqb (hd NUL s) NUL).
    + injection H as <- <-. split; [exact Q1|lia].
    + destruct (IH _ _ _ _ _ H) as (L1 & L2); cbn [cur_off copy_to preserve_separator rpath].
      * lia.
      * rewrite Q4. cbn [length]. lia.
      * split; congruence || lia.
  - destruct (rpath_size <=? length (rpath x)); [discriminate|].
    destruct (IH _ _ _ _ _ H) as (L1 & L2); cbn [cur_off copy_to preserve_separator rpath].
    + lia.
    + rewrite app_length. cbn [length]. lia.
    + rewrite D1 in *. split; [exact L1|exact L2].
Qed.

Lemma remove_size : forall root off f f' cl, remove_paths root off f = Done (f', cl) -> length (data f') = length (data f).
Proof.
  intros root off f f' cl H. unfold remove_paths in H.
  destruct (paths_loop _ _ _ _) as [[f1 x1]| | | |] eqn:E; try discriminate. cbn [obind] in H.
  assert (Hf : f' = write [NUL] (seek (copy_to x1) f1)) by congruence. clear H. subst f'.
  destruct (loop_size _ _ _ _ _ _ E eq_refl ltac:(cbn; lia)) as (L1 & L2). cbn [seek data] in L1, L2.
  unfold seek. rewrite write_length; [exact L1|]. cbn [length]. lia.
Qed.

Lemma shift_size : forall n d i f f', shift n d i f = Done f' -> 1 <= i -> length (data f') = length (data f).
Proof.
  induction n as [|n IH]; intros d i f f' H Li; cbn [shift] in H; [injection H as <-; reflexivity|].
  destruct (read _ _) as [[b f1]| | | |] eqn:R; try discriminate. cbn [obind] in H.
  destruct (read_bound _ _ _ _ R) as (D1 & Lb & R1). cbn [seek data pos] in D1, R1.
  rewrite (IH _ _ _ _ H ltac:(lia)). destruct b as [|c b]; [cbn; rewrite D1; reflexivity|].
  cbn [length] in Lb. destruct (R1 ltac:(lia)) as (_ & L2).
  unfold seek. rewrite write_length; [rewrite D1; reflexivity|]. rewrite D1, <- Lb. cbn [length].
  rewrite <- Lb in L2. destruct i as [|i]; [lia|]. replace (S i - 1) with i by lia. nia.
Qed.

Lemma dynamic_data : forall n w es f l f', dynamic_loop n w es f = Done (l, f') -> data f' = data f.
Proof.
  induction n as [|n IH]; intros w es f l f' H; cbn [dynamic_loop] in H; [injection H as _ <-; reflexivity|].
  destruct (read es f) as [[b f1]| | | |] eqn:R; try discriminate. cbn [obind] in H.
  destruct (dynamic_loop n w es f1) as [[l1 f2]| | | |] eqn:E; try discriminate. cbn [obind] in H. injection H as _ <-.
  rewrite (IH _ _ _ _ _ E). apply (read_bound _ _ _ _ R).
Qed.

Lemma parse_dynamic_data : forall e d f l f', parse_dynamic e d f = Done (l, f') -> data f' = data f.
Proof.
  intros e d f l f' H. unfold parse_dynamic in H. destruct (hdr_size <? s_entsize d); [discriminate|].
  apply dynamic_data in H. exact H.
Qed.

Lemma sections_data : forall n e f a b d t f', sections_loop n e f a b = Done (d, t, f') -> data f' = data f.
Proof.
  induction n as [|n IH]; intros e f a b d t f' H; cbn [sections_loop] in H; [discriminate|].
  destruct (read (shentsize e) f) as [[s f1]| | | |] eqn:R; try discriminate. cbn [obind] in H.
  pose proof (proj1 (read_bound _ _ _ _ R)) as D1. destruct (read_section (wide e) s) as [ty sec].
  destruct (if ty =? 6 then Some sec else a), (if ty =? 3 then Some sec else b).
  1: injection H as _ _ <-; exact D1.
  all: rewrite (IH _ _ _ _ _ _ _ H); exact D1.
Qed.

Lemma entry_size : forall e d i f f', remove_path_entry e d i f = Done f' -> length (data f') = length (data f).
Proof.
  intros e d i f f' H. unfold remove_path_entry in H. destruct (hdr_size <? s_entsize d); [discriminate|].
  destruct (shift _ _ _ _) as [f1| | | |] eqn:E; try discriminate. cbn [obind] in H.
  destruct (parse_dynamic e d f1) as [[l f2]| | | |] eqn:Ep; try discriminate. cbn [obind] in H. injection H as <-.
  rewrite (parse_dynamic_data _ _ _ _ _ Ep). apply (shift_size _ _ _ _ _ E). lia.
Qed.

Lemma each_size : forall found root e d t f f', fix_each root e d t found f = Done f' -> length (data f') = length (data f).
Proof.
  induction found as [|[(off & i)|] l IH]; intros root e d t f f' H; cbn [fix_each] in H.
  - injection H as <-. reflexivity.
  - destruct (remove_paths root (s_off t + off) f) as [[f1 cl]| | | |] eqn:E; try discriminate. cbn [obind] in H.
    apply remove_size in E. destruct cl.
    + destruct (remove_path_entry e d i f1) as [f2| | | |] eqn:E2; try discriminate. cbn [obind] in H.
      apply entry_size in E2. rewrite (IH _ _ _ _ _ _ H). congruence.
    + rewrite (IH _ _ _ _ _ _ H). exact E.
  - exact (IH _ _ _ _ _ _ H).
Qed.

(** ** entries *)
Lemma read_at : forall p b q k, k = length p -> read (length b) (mkIo (p ++ b ++ q) k)
  = Done (b, mkIo (p ++ b ++ q) (k + length b)).
Proof.
  intros p b q k ->. destruct b as [|c b]; [cbn; rewrite Nat.add_0_r; reflexivity|].
  unfold read. cbn [data pos length]. rewrite !app_length. cbn [length].
  replace (length p + S (length b) <=? length p + (S (length b) + length q)) with true by (symmetry; apply Nat.leb_le; lia).
  rewrite skipn_app, skipn_all, Nat.sub_diag. cbn [skipn app].
  replace (S (length b)) with (length (c :: b)) by reflexivity.
  rewrite app_comm_cons, firstn_app, firstn_all, Nat.sub_diag. cbn [firstn]. rewrite app_nil_r. reflexivity.
Qed.

Lemma concat_length : forall n (es : list bytes), Forall (fun e => length e = n) es -> length (concat es) = n * length es.
Proof.
  induction es as [|e es IH]; intros F; cbn [concat length]; [lia|]. inversion F; subst.
  rewrite app_length, IH by assumption. lia.
Qed.

Lemma shift_entries : forall b d a x pre post n,
  s_off d = length pre -> Forall (fun e => length e = s_entsize d) (a ++ x :: b) ->
  exists m, shift (length b) d (length a + 1) (mkIo (pre ++ concat (a ++ x :: b) ++ post) n)
  = Done (mkIo (pre ++ concat (a ++ b ++ [last b x]) ++ post) m).
Proof.
  induction b as [|y b IH]; intros d a x pre post n O F; cbn [length shift].
  - exists n. reflexivity.
  - assert (F' := F). apply Forall_app in F' as (Fa & Fx). inversion Fx as [|? ? Lx Fy]; subst. inversion Fy as [|? ? Ly Fb]; subst.
    pose proof (concat_length _ _ Fa) as La. unfold seek. cbn [data].
    assert (D : pre ++ concat (a ++ x :: y :: b) ++ post = (pre ++ concat a ++ x) ++ y ++ concat b ++ post).
    { rewrite concat_app. cbn [concat]. rewrite <- !app_assoc. reflexivity. }
    assert (R : read (s_entsize d) (mkIo (pre ++ concat (a ++ x :: y :: b) ++ post) (s_off d + s_entsize d * (length a + 1)))
      = Done (y, mkIo ((pre ++ concat a ++ x) ++ y ++ concat b ++ post) (s_off d + s_entsize d * (length a + 1) + length y))).
    { rewrite D, <- Ly. apply read_at. rewrite !app_length, La, O, Lx, Ly. lia. }
    rewrite R. cbn [obind data].
    replace ((pre ++ concat a ++ x) ++ y ++ concat b ++ post) with ((pre ++ concat a) ++ x ++ y ++ concat b ++ post)
      by (rewrite <- !app_assoc; reflexivity).
    assert (W : write y (mkIo ((pre ++ concat a) ++ x ++ y ++ concat b ++ post) (s_off d + s_entsize d * (length a + 1 - 1)))
      = mkIo (pre ++ concat ((a ++ [y]) ++ y :: b) ++ post) (length (pre ++ concat a) + length y)).
    { replace (s_off d + s_entsize d * (length a + 1 - 1)) with (length (pre ++ concat a))
        by (rewrite app_length, La, O; replace (length a + 1 - 1) with (length a) by lia; lia).
      rewrite write_in by (rewrite (app_length (pre ++ concat a)), (app_length x); lia).
      rewrite firstn_app, firstn_all, Nat.sub_diag. cbn [firstn]. rewrite app_nil_r.
      rewrite skipn_add, skipn_app, skipn_all, Nat.sub_diag. cbn [skipn app].
      rewrite Ly, <- Lx, skipn_app, skipn_all, Nat.sub_diag. cbn [skipn app].
      rewrite !concat_app. cbn [concat]. rewrite app_nil_r, <- !app_assoc. reflexivity. }
    rewrite W.
    destruct (IH d (a ++ [y]) y pre post (length (pre ++ concat a) + length y) O) as (m & E).
    { apply Forall_app. split; [apply Forall_app; split; [exact Fa|constructor; [exact Ly|constructor]]|constructor; assumption]. }
    exists m. rewrite app_length in E. cbn [length] in E. replace (S (length a + 1)) with (length a + 1 + 1) by lia.
    rewrite E. f_equal. f_equal. rewrite <- app_assoc. cbn [app]. f_equal. f_equal. f_equal. f_equal.
    destruct b as [|z b]; [reflexivity|]. f_equal. cbn [app]. f_equal. f_equal. f_equal.
    clear. revert z. induction b as [|w b IH]; intros z; [reflexivity|]. cbn [last] in *. destruct b; [reflexivity|apply (IH z)].
Qed.

Lemma dynamic_reads : forall es w n p q, Forall (fun e => length e = n) es ->
  exists l f, dynamic_loop (length es) w n (mkIo (p ++ concat es ++ q) (length p)) = Done (l, f)
    /\ data f = p ++ concat es ++ q.
Proof.
  induction es as [|e es IH]; intros w n p q F; cbn [length dynamic_loop].
  - eexists _, _. split; reflexivity.
  - inversion F as [|? ? Le Fe]; subst. cbn [concat]. rewrite <- app_assoc, read_at by reflexivity. cbn [obind].
    destruct (IH w (length e) (p ++ e) q Fe) as (l & f & E & D).
    rewrite app_length in E. rewrite <- app_assoc in E. rewrite E. cbn [obind].
    eexists _, _. split; [reflexivity|]. rewrite D, <- app_assoc. reflexivity.
Qed.

(** ** ELF files of 64 bits *)
Lemma le_number : forall o n s, field o n s = number o n s.
Proof. intros. unfold field, number. generalize (firstn n (skipn o s)). intros b. induction b as [|c b IH]; [reflexivity|]. cbn. rewrite IH. reflexivity. Qed.

Lemma field_part : forall m k o n s, o + n <= m -> field o n (firstn m (skipn k s)) = number (k + o) n s.
Proof.
  intros m k o n s L. unfold field. rewrite skipn_firstn_comm, firstn_firstn, Nat.min_l by lia.
  rewrite <- skipn_add. pose proof (le_number (k + o) n s) as E. unfold field in E. exact E.
Qed.

Lemma read_some : forall m k s, 0 < m -> k + m <= length s ->
  read m (mkIo s k) = Done (firstn m (skipn k s), mkIo s (k + m)).
Proof.
  intros [|m] k s L1 L2; [lia|]. unfold read. cbn [data pos].
  replace (k + S m <=? length s) with true by (symmetry; apply Nat.leb_le; lia). reflexivity.
Qed.

Lemma firstn_plus : forall (a b : nat) (s : bytes), firstn a s ++ firstn b (skipn a s) = firstn (a + b) s.
Proof.
  induction a as [|a IH]; intros b s; [reflexivity|]. destruct s as [|c s]; [cbn; destruct b; reflexivity|].
  cbn [firstn skipn Nat.add app]. rewrite IH. reflexivity.
Qed.

Lemma parse_elf64 : forall s shoff shnum, elf64 s shoff shnum ->
  parse_elf (mkIo s 0) = Some (mkElf true shoff 64 shnum).
Proof.
  intros s so sn (L & M & C & En & O & Z & K & _). unfold parse_elf.
  assert (R1 : read 16 (mkIo s 0) = Done (firstn 16 (skipn 0 s), mkIo s (0 + 16))) by (apply read_some; lia).
  assert (R2 : read 48 (mkIo s (0 + 16)) = Done (firstn 48 (skipn (0 + 16) s), mkIo s (0 + 16 + 48))) by (apply read_some; lia).
  assert (F16 : forall o n, o + n <= 16 -> field o n (firstn 16 (skipn 0 s)) = number o n s) by (intros; apply field_part; assumption).
  assert (F64 : forall o n, o + n <= 64 -> field o n (firstn 16 (skipn 0 s) ++ firstn 48 (skipn (0 + 16) s)) = number o n s).
  { intros o n Lo. change (skipn 0 s) with s. change (0 + 16) with 16. rewrite firstn_plus.
    exact (field_part 64 0 o n s Lo). }
  rewrite R1. rewrite firstn_firstn. change (Nat.min 4 16) with 4. change (firstn 4 (skipn 0 s)) with (firstn 4 s). rewrite M.
  replace (beqb (ascii_of_nat 127 :: B "ELF") (ascii_of_nat 127 :: B "ELF")) with true by (symmetry; apply beqb_refl).
  rewrite !F16 by lia. rewrite C. replace ((number 5 1 s =? 1) || (number 5 1 s =? 2))%bool with true
    by (destruct En as [-> | ->]; reflexivity).
  change ((2 =? 1) || (2 =? 2))%bool with true. cbn [negb]. change (2 =? 2) with true. cbn iota. rewrite R2.
  rewrite !F64 by lia. rewrite O, Z, K. reflexivity.
Qed.

Definition sec_at (s : bytes) (so i : nat) : section :=
  snd (read_section true (firstn 64 (skipn (so + 64 * i) s))).

Lemma sec_type : forall s so i, fst (read_section true (firstn 64 (skipn (so + 64 * i) s))) = sh_type s so i.
Proof. intros. unfold read_section, sh_type. cbn [fst]. apply field_part. lia. Qed.

Lemma sec_range : forall s so i off len es, sh_range s so i off len es -> es <> 0 -> sec_at s so i = mkSec off len es.
Proof.
  intros s so i off len es (O & L & E) Z. unfold sec_at, read_section. cbn [snd].
  rewrite !field_part by lia. rewrite O, L, E. destruct es as [|es]; [contradiction|]. rewrite Nat.div_mul by lia. reflexivity.
Qed.

Lemma sec_off : forall s so i, s_off (sec_at s so i) = number (so + 64 * i + 24) 8 s.
Proof. intros. unfold sec_at, read_section. cbn [snd s_off]. apply field_part. lia. Qed.

Lemma sections_step : forall n s so sn i dn st, so + 64 * i + 64 <= length s ->
  sections_loop (S n) (mkElf true so 64 sn) (mkIo s (so + 64 * i)) dn st
  = match (if sh_type s so i =? 6 then Some (sec_at s so i) else dn), (if sh_type s so i =? 3 then Some (sec_at s so i) else st) with
    | Some d, Some t => Done (d, t, mkIo s (so + 64 * S i))
    | d, t => sections_loop n (mkElf true so 64 sn) (mkIo s (so + 64 * S i)) d t
    end.
Proof.
  intros n s so sn i dn st L. cbn [sections_loop shentsize wide]. rewrite read_some by lia. cbn [obind].
  rewrite <- sec_type. unfold sec_at. destruct (read_section true _) as [ty sec]. cbn [fst snd].
  replace (so + 64 * i + 64) with (so + 64 * S i) by lia.
  destruct (ty =? 6), (ty =? 3), dn, st; reflexivity.
Qed.

Lemma sections_none : forall n s so sn i st, so + 64 * (i + n) <= length s ->
  (forall j, i <= j < i + n -> sh_type s so j <> 6) ->
  sections_loop n (mkElf true so 64 sn) (mkIo s (so + 64 * i)) None st = Failed.
Proof.
  induction n as [|n IH]; intros s so sn i st L T; [reflexivity|].
  rewrite sections_step by lia.
  destruct (Nat.eqb_spec (sh_type s so i) 6) as [E|_]; [exfalso; apply (T i); [lia|exact E]|].
  apply IH; [lia|]. intros j J. apply T. lia.
Qed.

Lemma sections_some : forall k s so sn i st t d m, d = i + k -> so + 64 * (d + 1) <= length s ->
  sh_type s so d = 6 -> (forall j, i <= j < d -> sh_type s so j <> 6) ->
  (i <= t /\ t < d /\ sh_type s so t = 3 \/ st = Some (sec_at s so t) /\ t < i) ->
  (forall j, t < j -> j < d -> sh_type s so j <> 3) ->
  sections_loop (k + S m) (mkElf true so 64 sn) (mkIo s (so + 64 * i)) None st
  = Done (sec_at s so d, sec_at s so t, mkIo s (so + 64 * S d)).
Proof.
  induction k as [|k IH]; intros s so sn i st t d m -> L T6 N6 St N3; cbn [Nat.add].
  - destruct St as [(S1 & S2 & _) | (-> & S2)]; [lia|]. rewrite sections_step by lia. rewrite Nat.add_0_r in *. rewrite T6. reflexivity.
  - rewrite sections_step by lia.
    destruct (Nat.eqb_spec (sh_type s so i) 6) as [E|_]; [exfalso; apply (N6 i); [lia|exact E]|].
    apply IH; try assumption; try lia.
    + intros j J. apply N6. lia.
    + destruct St as [(S1 & S2 & S3) | (-> & S2)].
      * destruct (Nat.eq_dec i t) as [<-|Ne]; [right; rewrite S3; cbn; split; [reflexivity|lia]|left; lia].
      * right. destruct (Nat.eqb_spec (sh_type s so i) 3) as [E|_]; [exfalso; apply (N3 i); [lia|lia|exact E]|split; [reflexivity|lia]].
Qed.

Lemma sections64 : forall s so sn doff n toff, elf64 s so sn -> dynamic s so sn doff n toff ->
  exists t f, parse_sections (mkElf true so 64 sn) (mkIo s 0) = Done (mkSec doff n 16, t, f) /\ s_off t = toff /\ data f = s.
Proof.
  intros s so sn doff n toff (_ & _ & _ & _ & _ & _ & _ & L) (t & d & Td & Dn & T6 & N6 & T3 & N3 & R & _ & O).
  exists (sec_at s so t), (mkIo s (so + 64 * S d)). split; [|split; [rewrite sec_off; exact O|reflexivity]].
  unfold parse_sections. cbn [shentsize shnum shoff]. change (hdr_size <? 64) with false. cbn iota. unfold seek. cbn [data].
  replace (mkIo s so) with (mkIo s (so + 64 * 0)) by (f_equal; lia).
  replace sn with (d + S (sn - d - 1)) at 1 by lia.
  rewrite (sections_some d s so sn 0 None t d (sn - d - 1)); try assumption; try lia.
  - rewrite (sec_range s so d doff n 16 R) by discriminate. reflexivity.
  - intros j J. apply N6. lia.
Qed.

Lemma dynamic64 : forall n s off i, off + 16 * (i + n) <= length s ->
  exists f, dynamic_loop n true 16 (mkIo s (off + 16 * i))
  = Done (map (fun j => (dyn_tag s off j, dyn_val s off j)) (seq i n), f) /\ data f = s.
Proof.
  induction n as [|n IH]; intros s off i L; cbn [dynamic_loop seq map]; [eexists; split; reflexivity|].
  rewrite read_some by lia. cbn [obind].
  destruct (IH s off (S i) ltac:(lia)) as (f & E & D).
  replace (off + 16 * i + 16) with (off + 16 * S i) by lia. rewrite E. cbn [obind]. exists f. split; [|exact D].
  rewrite !field_part by lia. unfold dyn_tag, dyn_val. rewrite Nat.add_0_r. reflexivity.
Qed.

Lemma tag_none : forall l tag i found, Forall (fun p => fst p <> tag) l -> with_tag tag l i found = found.
Proof.
  induction l as [|[t v] l IH]; intros tag i found F; [reflexivity|]. inversion F; subst. cbn [with_tag].
  destruct (Nat.eqb_spec t tag) as [E|_]; [contradiction|]. apply IH. assumption.
Qed.

Lemma tag_one : forall a tag v b i found, Forall (fun p => fst p <> tag) b ->
  with_tag tag (a ++ (tag, v) :: b) i found = Some (v, i + length a).
Proof.
  induction a as [|[t w] a IH]; intros tag v b i found F; cbn [app with_tag length].
  - rewrite Nat.eqb_refl, Nat.add_0_r. apply tag_none. exact F.
  - rewrite IH by exact F. f_equal. f_equal. lia.
Qed.

(** the last entry with a tag *)
Lemma tag_at : forall s off n tag j, j < n -> dyn_tag s off j = tag -> (forall i, j < i -> i < n -> dyn_tag s off i <> tag) ->
  with_tag tag (map (fun j => (dyn_tag s off j, dyn_val s off j)) (seq 0 n)) 0 None = Some (dyn_val s off j, j).
Proof.
  intros s off n tag j J T N. replace n with (j + S (n - j - 1)) by lia.
  rewrite seq_app, map_app. cbn [seq map Nat.add]. rewrite T, tag_one.
  - rewrite map_length, seq_length. reflexivity.
  - apply Forall_forall. intros p P. apply in_map_iff in P as (i & <- & I). apply in_seq in I. cbn [fst]. apply N; lia.
Qed.

Lemma tag_not : forall s off n tag, (forall i, i < n -> dyn_tag s off i <> tag) ->
  with_tag tag (map (fun j => (dyn_tag s off j, dyn_val s off j)) (seq 0 n)) 0 None = None.
Proof.
  intros s off n tag N. apply tag_none. apply Forall_forall. intros p P. apply in_map_iff in P as (i & <- & I).
  apply in_seq in I. cbn [fst]. apply N; lia.
Qed.

Lemma fix64 : forall root s so sn doff n toff, elf64 s so sn -> dynamic s so sn doff n toff ->
  exists t f, s_off t = toff /\ data f = s /\
  let l := map (fun j => (dyn_tag s doff j, dyn_val s doff j)) (seq 0 n) in
  fix_rpaths root s = obind (fix_each root (mkElf true so 64 sn) (mkSec doff n 16) t
     [with_tag 15 l 0 None; with_tag 29 l 0 None] f) (fun f => Done (data f)).
Proof.
  intros root s so sn doff n toff E D. destruct (sections64 _ _ _ _ _ _ E D) as (t & f & P & O & Df).
  assert (Ld : doff + 16 * (0 + n) <= length s) by (destruct D as (? & ? & D); cbn; tauto).
  destruct (dynamic64 n s doff 0 Ld) as (f2 & Pd & D2).
  exists t, f2. split; [exact O|]. split; [exact D2|]. cbv zeta. unfold fix_rpaths. rewrite (parse_elf64 _ _ _ E), P. cbn [obind].
  unfold parse_dynamic. cbn [s_entsize s_len s_off wide]. change (hdr_size <? 16) with false. cbn iota.
  unfold seek. rewrite Df. replace (mkIo s doff) with (mkIo s (doff + 16 * 0)) by (f_equal; lia). rewrite Pd. reflexivity.
Qed.
