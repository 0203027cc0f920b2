(** Lemmas about the path functions of the fs module. *)
From Coq Require Import List Lia.
From Verif Require Import Base M_Path S_Path L_Path L_Path2 L_Path3 M_Fs S_Fs.
Import ListNotations.
Local Arguments B _ : simpl never.

Lemma mem_char_spec : forall c s, mem_char c s = true <-> In c s.
Proof.
  intros c s. induction s as [|x s IH]; cbn [mem_char In]; [split; [discriminate|tauto]|].
  destruct (ceqb_spec c x) as [->|N0]; cbn [orb]; [tauto|]. rewrite IH. intuition congruence.
Qed.

Lemma mem_char_false : forall c s, ~ In c s -> mem_char c s = false.
Proof.
  intros c s H. destruct (mem_char c s) eqn:E; [|reflexivity]. destruct H. apply mem_char_spec. exact E.
Qed.

Lemma walk_comps_flat : forall abs cs, Forall good (flat (walk cs)) ->
  walk (comps (render abs (flat (walk cs)))) = walk cs.
Proof. intros abs cs G. rewrite comps_render by exact G. apply walk_flat. apply walk_noup. Qed.

Lemma flat_good : forall cs, Forall good cs -> Forall good (flat (walk cs)).
Proof.
  intros cs G. assert (E : comps (render true cs) = cs) by (apply comps_render; exact G).
  rewrite <- E. apply flat_walk_good.
Qed.

Section Where.
Variables (home : option bytes) (cwd : bytes).

Definition accepts (o : fopts) (x : arg) : Prop :=
  match x with AString _ => True | AFile _ => allow_file o = true end.

Lemma fix_path : forall x o, accepts o x -> a_path (text x) ->
  fix_file_path home cwd x o =
    obind (if path_is_absolute (text x) then path (path_copy (text x))
           else match text x, expand o with
                | "~"%char :: r, true =>
                    match home with Some h => path (path_join h r) | None => Fails end
                | _, _ => if noabs o then path (path_copy (text x)) else path (path_join cwd (text x))
                end) (fun b => path (path_normalize true b)).
Proof.
  intros x o A (Ne & Nn). unfold fix_file_path.
  assert (E : match x with AString s => Gives s | AFile s => if allow_file o then Gives s else Fails end
              = Gives (text x)).
  { destruct x; [reflexivity|]. cbn in A. rewrite A. reflexivity. }
  rewrite E. cbn [obind]. rewrite mem_char_false by exact Nn.
  apply beqb_neq in Ne. rewrite Ne. reflexivity.
Qed.

(** what is left if nothing is expanded *)
Lemma fix_plain : forall x o, accepts o x -> a_path (text x) ->
  (expand o = false \/ ~ tilde (text x)) ->
  fix_file_path home cwd x o =
    obind (if path_is_absolute (text x) then path (path_copy (text x))
           else if noabs o then path (path_copy (text x)) else path (path_join cwd (text x)))
      (fun b => path (path_normalize true b)).
Proof.
  intros x o A P T. rewrite (fix_path x o A P). destruct (path_is_absolute (text x)); [reflexivity|].
  f_equal. destruct (text x) as [|c r] eqn:E; [reflexivity|].
  destruct T as [->|T].
  - destruct c as [[] [] [] [] [] [] [] []]; reflexivity.
  - destruct c as [[] [] [] [] [] [] [] []]; try reflexivity. destruct T. exists r. reflexivity.
Qed.

Lemma normal_of_render : forall abs cs, Forall good cs ->
  path_normalize true (render abs cs) = Some (render abs (flat (walk cs))).
Proof.
  intros abs cs G. rewrite normalize_true by (apply render_nonempty; exact G).
  rewrite is_abs_render, comps_render by exact G. reflexivity.
Qed.

Lemma fix_rel : forall x o, accepts o x -> a_path (text x) ->
  (expand o = false \/ ~ tilde (text x)) -> noabs o = true ->
  fix_file_path home cwd x o = Gives (render (is_abs (text x)) (flat (walk (comps (text x))))).
Proof.
  intros x o A P T N0. rewrite (fix_plain x o A P T), N0.
  assert (C : path_copy (text x) = Some (render (is_abs (text x)) (comps (text x))))
    by (apply path_copy_nonempty; exact (proj1 P)).
  rewrite C. destruct (path_is_absolute (text x)); cbn [path obind];
    rewrite normal_of_render by apply comps_good; reflexivity.
Qed.

Hypothesis cwd_abs : is_abs cwd = true.

Lemma place_good : forall s, Forall good (flat (place cwd s)).
Proof.
  intros s. unfold place. apply flat_good. destruct (is_abs s); [apply comps_good|].
  apply Forall_app. split; apply comps_good.
Qed.

Lemma fix_abs : forall x o, accepts o x -> a_path (text x) ->
  (expand o = false \/ ~ tilde (text x)) -> noabs o = false ->
  fix_file_path home cwd x o = Gives (render true (flat (place cwd (text x)))).
Proof.
  intros x o A P T N0. rewrite (fix_plain x o A P T), N0. unfold place. rewrite is_abs_same.
  destruct (is_abs (text x)) eqn:Ab.
  - rewrite path_copy_nonempty by exact (proj1 P). rewrite Ab. cbn [path obind].
    rewrite normal_of_render by apply comps_good. reflexivity.
  - rewrite path_join_rel; [|intros ->; discriminate|exact (proj1 P)|exact Ab]. rewrite cwd_abs.
    cbn [path obind]. rewrite normal_of_render; [reflexivity|].
    apply Forall_app. split; apply comps_good.
Qed.

Lemma place_walk : forall s, walk (comps (render true (flat (place cwd s)))) = place cwd s.
Proof.
  intros s. rewrite comps_render by apply place_good. apply walk_flat. unfold place. apply walk_noup.
Qed.

Lemma name_of : forall x front n, a_path (text x) -> snd (place cwd (text x)) = front ++ [n] ->
  fs_name home cwd x = Gives n.
Proof.
  intros x front n P E. unfold fs_name. rewrite fix_abs; [|destruct x; exact I || reflexivity|exact P| |];
    [|left; reflexivity|reflexivity].
  cbn [obind]. pose proof (place_good (text x)) as G.
  assert (C : comps (render true (flat (place cwd (text x))))
              = (repeat (B "..") (fst (place cwd (text x))) ++ front) ++ [n]).
  { rewrite comps_render by exact G. unfold flat. rewrite E, app_assoc. reflexivity. }
  destruct (dirname_basename _ _ _ (render_nonempty true _ G) C) as (-> & _). reflexivity.
Qed.
End Where.

(** ** the last dot *)
Lemma cut_at : forall stem e, ~ In "."%char e -> cut (stem ++ "."%char :: e) = stem.
Proof.
  intros stem e N0. unfold cut. rewrite last_index_app. cbn [last_index]. rewrite ceqb_refl.
  rewrite last_index_notin by exact N0. cbn. rewrite firstn_app, firstn_all, Nat.sub_diag.
  cbn. apply app_nil_r.
Qed.

Lemma cut_none : forall s, ~ In "."%char s -> cut s = s.
Proof. intros s N0. unfold cut. rewrite last_index_notin by exact N0. reflexivity. Qed.

Lemma render_snoc : forall abs cs n, exists pre,
  render abs (cs ++ [n]) = pre ++ n /\ (forall m, render abs (cs ++ [m]) = pre ++ m).
Proof.
  intros abs cs n. exists ((if abs then [SEP] else []) ++ body cs).
  assert (R : forall m, render abs (cs ++ [m]) = ((if abs then [SEP] else []) ++ body cs) ++ m).
  { intros m. unfold render. change (B "/") with [SEP]. change "/"%char with SEP.
    destruct abs.
    - rewrite joinb_snoc. reflexivity.
    - destruct (cs ++ [m]) as [|x l] eqn:E; [destruct cs; discriminate|].
      rewrite <- E, joinb_snoc. reflexivity. }
  split; [apply R|exact R].
Qed.

Lemma name_good : forall n, a_name n -> good n /\ noup n.
Proof.
  intros n (N1 & N2 & N3 & N4). split; [split; [|exact N4]|].
  - unfold moves. apply beqb_neq in N1, N2. rewrite N1, N2. reflexivity.
  - unfold noup, is_up. apply beqb_neq. exact N3.
Qed.

(** ** totality *)
Lemma normalize_total : forall b p, exists q, path_normalize b p = Some q.
Proof.
  intros b [|c p]; [exists []; reflexivity|]. rewrite normalize_spec by discriminate. eexists. reflexivity.
Qed.

Lemma push_total : forall s b, exists q, path_push s b = Some q.
Proof.
  intros s b. unfold path_push, path_copy.
  destruct (path_is_absolute b || beqb s []); [apply normalize_total|]. destruct b as [|c b].
  - destruct (normalize_total false s) as (q & ->). eexists. reflexivity.
  - apply normalize_total.
Qed.

Lemma join_total : forall a b, exists q, path_join a b = Some q.
Proof.
  intros a b. unfold path_join. destruct (push_total [] a) as (q & ->). apply push_total.
Qed.

Lemma dirname_total : forall p, exists q, path_dirname p = Some q.
Proof.
  intros [|c p]; [eexists; reflexivity|]. unfold path_dirname, path_copy.
  destruct (normalize_total false (c :: p)) as (t & ->).
  destruct (last_index SEP t 0 None) as [[|i]|]; [apply normalize_total|apply normalize_total|eexists; reflexivity].
Qed.

Lemma basename_total : forall p, exists q, path_basename p = Some q.
Proof.
  intros [|c p]; [eexists; reflexivity|]. unfold path_basename, path_copy.
  destruct (normalize_total false (c :: p)) as (t & ->). apply normalize_total.
Qed.

Lemma fix_total : forall home cwd x o, fix_file_path home cwd x o <> Crash.
Proof.
  intros home cwd x o. unfold fix_file_path.
  assert (K : forall s, (if mem_char NUL s then Fails
    else if beqb s [] then Fails
    else obind (if path_is_absolute s then path (path_copy s)
           else match s, expand o with
                | "~"%char :: r, true => match home with Some h => path (path_join h r) | None => Fails end
                | _, _ => if noabs o then path (path_copy s) else path (path_join cwd s)
                end) (fun b => path (path_normalize true b))) <> Crash).
  { intros s. destruct (mem_char NUL s); [discriminate|]. destruct (beqb s []); [discriminate|].
    assert (N0 : forall y : out bytes, y <> Crash -> obind y (fun b => path (path_normalize true b)) <> Crash).
    { intros [b| |] H; cbn [obind]; [|discriminate|congruence].
      destruct (normalize_total true b) as (q & ->). discriminate. }
    apply N0.
    assert (C : path (path_copy s) <> Crash)
      by (unfold path_copy; destruct (normalize_total false s) as (q & ->); discriminate).
    assert (J : forall a b, path (path_join a b) <> Crash)
      by (intros a b; destruct (join_total a b) as (q & ->); discriminate).
    destruct (path_is_absolute s); [exact C|].
    assert (D : (if noabs o then path (path_copy s) else path (path_join cwd s)) <> Crash)
      by (destruct (noabs o); [exact C|apply J]).
    destruct s as [|c s]; [exact D|].
    destruct c as [[] [] [] [] [] [] [] []]; try exact D. destruct (expand o); [|exact D].
    destruct home; [apply J|discriminate]. }
  destruct x as [s|s]; cbn [obind]; [apply K|]. destruct (allow_file o); [apply K|discriminate].
Qed.
