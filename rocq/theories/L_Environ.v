(** Lemmas about environments. *)
From Coq Require Import Lia.
From Verif Require Import Base M_Environ S_Environ.

Lemma cstr_ok s : no_nul s -> cstr s = Ok s.
Proof. intros H. unfold cstr. apply mem_char_not_In in H. now rewrite H. Qed.

Lemma dict_set_same d k v : dict_index (dict_set d k v) k = Some v.
Proof.
  induction d as [|[k' v'] d IH]; cbn; [destruct (beqb_spec k k); congruence|].
  destruct (beqb_spec k' k) as [->|N]; cbn; [destruct (beqb_spec k k); congruence|]. destruct (beqb_spec k' k); [contradiction|assumption].
Qed.
Lemma dict_set_other d k v j : k <> j -> dict_index (dict_set d k v) j = dict_index d j.
Proof.
  intros N. induction d as [|[k' v'] d IH]; cbn; [destruct (beqb_spec k j); congruence|].
  destruct (beqb_spec k' k) as [->|N']; cbn; [|now rewrite IH]. destruct (beqb_spec k j); congruence.
Qed.
Lemma dict_set_keys d k v x : In x (map fst (dict_set d k v)) <-> x = k \/ In x (map fst d).
Proof.
  induction d as [|[k' v'] d IH]; cbn; [intuition congruence|]. destruct (beqb_spec k' k) as [->|N]; cbn; [intuition congruence|].
  rewrite IH. tauto.
Qed.

(** dictionaries that can be passed on *)
Record fine (d : dict) : Prop := {
  fine_nodup : NoDup (map fst d);
  fine_pairs : Forall (fun p => is_name (fst p) /\ no_nul (snd p)) d
}.
Lemma fine_set d k v : fine d -> is_name k -> no_nul v -> fine (dict_set d k v).
Proof.
  intros [N P] Hk Hv. split.
  - induction d as [|[k' v'] d IH]; cbn; [constructor; [easy|constructor]|]. inversion N as [|? ? N1 N2]; subst. inversion P; subst.
    destruct (beqb_spec k' k) as [->|Ne]; cbn; constructor; try assumption.
    + rewrite dict_set_keys. intros [->|H]; contradiction.
    + now apply IH.
  - clear N. induction d as [|[k' v'] d IH]; cbn; [now constructor|]. inversion P as [|? ? [P1 P2] P3]; subst.
    destruct (beqb_spec k' k) as [->|Ne]; constructor; auto.
Qed.
Lemma fine_value d k v : fine d -> dict_index d k = Some v -> no_nul v.
Proof.
  intros [_ P]. induction d as [|[k' v'] d IH]; cbn; [discriminate|]. inversion P as [|? ? [P1 P2] P3]; subst.
  destruct (beqb_spec k' k); [now intros [= <-]|auto].
Qed.

Lemma no_nul_app a b : no_nul (a ++ b) <-> no_nul a /\ no_nul b.
Proof. unfold no_nul. rewrite in_app_iff. tauto. Qed.
Lemma no_nul_join s l : no_nul s -> Forall no_nul l -> no_nul (joinb s l).
Proof.
  intros Hs F. induction F as [|x l Hx F IH]; [easy|]. destruct l as [|y l]; [exact Hx|].
  rewrite joinb_cons, !no_nul_app. tauto.
Qed.

Definition act (c : call) : action :=
  let s := match c_sep c with Some s => s | None => B ":" end in
  {| mode := c_mode c; key := c_key c; val := joinb s (c_vals c); sep := s |}.
Lemma calls_acts l : forall acts, Forall call_ok l -> environment_calls acts l = Ok (acts ++ map act l).
Proof.
  induction l as [|c l IH]; intros acts F; cbn [environment_calls map]; [now rewrite app_nil_r|].
  inversion F as [|? ? (H1 & H2 & H3 & H4) F']; subst. unfold environment_call.
  destruct (c_vals c) as [|x xs] eqn:E; [contradiction|]. cbn [length Nat.eqb bind]. rewrite IH by assumption.
  unfold environment_set, act. rewrite <- app_assoc, E. reflexivity.
Qed.

Lemma call_sep c : call_ok c -> no_nul (match c_sep c with Some s => s | None => B ":" end).
Proof. intros (_ & _ & _ & H). destruct (c_sep c); [now apply H|]. unfold no_nul. cbn. intros [[=]|[]]. Qed.
Lemma call_val c : call_ok c -> no_nul (val (act c)).
Proof. intros H. cbn. apply no_nul_join; [now apply call_sep|]. apply H. Qed.

Definition look (env : environ) (d : dict) (k : bytes) : option bytes :=
  match dict_index d k with Some v => Some v | None => env k end.

Lemma look_set env d k v j : look env (dict_set d k v) j = if list_eq_dec Ascii.ascii_dec k j then Some v else look env d j.
Proof.
  unfold look. destruct (list_eq_dec Ascii.ascii_dec k j) as [<-|N]; [now rewrite dict_set_same|now rewrite dict_set_other].
Qed.

Lemma iter_ok env d c : (forall k v, env k = Some v -> no_nul v) -> fine d -> call_ok c ->
  exists v, to_dict_iter env d (act c) = Ok (dict_set d (c_key c) v) /\ no_nul v /\ after (look env d (c_key c)) c = Some v.
Proof.
  intros He Fd C. pose proof (call_sep c C) as Hs. pose proof (call_val c C) as Hv. unfold to_dict_iter. cbn [mode key val sep act] in *.
  assert (L : match dict_index d (c_key c) with Some v => do v <- cstr v; Ok (Some v) | None => do k <- cstr (c_key c); Ok (env k) end
           = Ok (look env d (c_key c)) /\ forall v, look env d (c_key c) = Some v -> no_nul v).
  { unfold look. destruct (dict_index d (c_key c)) as [v|] eqn:E.
    - assert (no_nul v) by (now apply fine_value with d (c_key c)). rewrite cstr_ok by assumption. split; [reflexivity|]. now intros w [= <-].
    - rewrite cstr_ok by exact (proj1 (proj1 C)). split; [reflexivity|]. apply He. }
  destruct L as [L Lv]. unfold after.
  destruct (c_mode c).
  - eexists. split; [reflexivity|]. split; [assumption|]. reflexivity.
  - rewrite L. cbn [bind]. destruct (look env d (c_key c)) as [old|].
    + rewrite (cstr_ok _ Hs), (cstr_ok _ Hv). cbn [bind]. eexists. split; [reflexivity|]. split; [|reflexivity].
      rewrite !no_nul_app. specialize (Lv old eq_refl). tauto.
    + eexists. split; [reflexivity|]. split; [assumption|]. reflexivity.
  - rewrite L. cbn [bind]. destruct (look env d (c_key c)) as [old|].
    + rewrite (cstr_ok _ Hs), (cstr_ok _ Hv). cbn [bind]. eexists. split; [reflexivity|]. split; [|reflexivity].
      rewrite !no_nul_app. specialize (Lv old eq_refl). tauto.
    + eexists. split; [reflexivity|]. split; [assumption|]. reflexivity.
Qed.

Lemma to_dict_ok env l : (forall k v, env k = Some v -> no_nul v) -> forall d, fine d -> Forall call_ok l ->
  exists d', to_dict env d (map act l) = Ok d' /\ fine d' /\ (length d <= length d') /\ (l <> [] -> d' <> []) /\ forall k, look env d' k = replay k (look env d k) l.
Proof.
  intros He. induction l as [|c l IH]; intros d Fd F; cbn [map to_dict].
  - exists d. split; [reflexivity|]. split; [assumption|]. split; [lia|]. split; [easy|]. reflexivity.
  - inversion F as [|? ? C F']; subst. destruct (iter_ok env d c He Fd C) as (v & -> & Hv & Av). cbn [bind].
    destruct (IH (dict_set d (c_key c) v)) as (d' & -> & Fd' & Ld' & _ & R); [apply fine_set; [assumption|apply C|assumption]|assumption|].
    exists d'. split; [reflexivity|]. split; [assumption|].
    assert (length d <= length (dict_set d (c_key c) v) /\ dict_set d (c_key c) v <> []) as [L1 L2].
    { clear. induction d as [|[k' v'] d IH]; cbn; [split; [lia|discriminate]|]. destruct (beqb k' (c_key c)); cbn; split; try discriminate; lia. }
    split; [lia|]. split.
    { intros _ ->. destruct (dict_set d (c_key c) v); [contradiction|]. cbn in Ld'. lia. }
    intros k. rewrite R. cbn [replay]. f_equal. rewrite look_set. destruct (list_eq_dec _ _ _) as [<-|N]; [now rewrite Av|reflexivity].
Qed.

(** ** The loop that reads the string *)
Lemma at_nul_app a b : no_nul a -> at_nul (a ++ NUL :: b) = a.
Proof.
  induction a as [|c a IH]; intros H; cbn; [destruct (ceqb_spec NUL NUL); congruence|].
  destruct (ceqb_spec c NUL) as [->|N]; [exfalso; apply H; now left|]. f_equal. apply IH. intros K. apply H. now right.
Qed.
Lemma set_all_skip a b k n e : no_nul a -> set_all (a ++ b) k n e = set_all b k n e.
Proof.
  induction a as [|c a IH]; intros H; cbn; [reflexivity|].
  destruct (ceqb_spec c NUL) as [->|N]; [exfalso; apply H; now left|]. apply IH. intros K. apply H. now right.
Qed.
Lemma setenv_ok e k v : is_name k -> setenv e k v = Ok (fun k' => if beqb k k' then Some v else e k').
Proof.
  intros (_ & N & E). unfold setenv. destruct k as [|c k]; [contradiction|]. apply mem_char_not_In in E. rewrite E. reflexivity.
Qed.
Lemma set_all_ok d tail : forall e, NoDup (map fst d) -> Forall (fun p => is_name (fst p) /\ no_nul (snd p)) d -> d <> [] ->
  exists e', set_all (envstr d ++ tail) (Some (envstr d ++ tail)) (length d) e = Ok e'
    /\ forall k, e' k = look e d k.
Proof.
  induction d as [|[k v] d IH]; intros e N P NE; [contradiction|]. inversion N as [|? ? N1 N2]; subst. inversion P as [|? ? [Hk Hv] P']; subst.
  cbn [envstr]. rewrite <- app_assoc. cbn [app]. rewrite <- app_assoc. cbn [app].
  rewrite set_all_skip by apply Hk. cbn [set_all]. destruct (ceqb_spec NUL NUL) as [_|]; [|congruence].
  rewrite at_nul_app by apply Hk. rewrite at_nul_app by assumption. rewrite setenv_ok by assumption. cbn [bind].
  destruct (v ++ NUL :: envstr d ++ tail) as [|x rest] eqn:E; [destruct v; discriminate|]. rewrite <- E. clear E x rest.
  cbn [length]. destruct d as [|p d].
  - cbn [length Nat.leb]. eexists. split; [reflexivity|]. intros k'. unfold look. cbn. destruct (beqb k k'); reflexivity.
  - replace (S (length (p :: d)) <=? 1) with false by (symmetry; apply Nat.leb_gt; cbn; lia).
    replace (S (length (p :: d)) - 1) with (length (p :: d)) by lia.
    rewrite set_all_skip by assumption. cbn [set_all]. destruct (ceqb_spec NUL NUL) as [_|]; [|congruence].
    destruct (IH (fun k' => if beqb k k' then Some v else e k') N2 P') as (e' & E & He); [discriminate|].
    rewrite E. exists e'. split; [reflexivity|]. intros k'. rewrite He. unfold look. change (dict_index ((k, v) :: p :: d) k') with (if beqb k k' then Some v else dict_index (p :: d) k').
    destruct (beqb_spec k k') as [<-|Ne]; [|reflexivity].
    assert (dict_index (p :: d) k = None) as ->; [|reflexivity].
    clear - N1. induction (p :: d) as [|[a b] l IHl]; cbn; [reflexivity|]. cbn in N1. destruct (beqb_spec a k); [tauto|]. apply IHl. tauto.
Qed.

(** ** Lists of strings *)
Lemma split_eql_some s k v : split_eql s = Some (k, v) <-> s = k ++ "="%char :: v /\ ~ In "="%char k.
Proof.
  revert k v. induction s as [|c s IH]; intros k v; cbn.
  - split; [discriminate|]. intros [E _]. destruct k; discriminate.
  - destruct (ceqb_spec c "="%char) as [->|N].
    + split.
      * intros [= <- <-]. split; [reflexivity|easy].
      * intros [E H]. destruct k as [|d k]; cbn in E; [congruence|]. injection E as E1 E2. exfalso. apply H. left. congruence.
    + destruct (split_eql s) as [[k' v']|] eqn:E.
      * split.
        -- intros [= <- <-]. destruct (proj1 (IH k' v') eq_refl) as [-> H]. split; [reflexivity|]. intros [|]; congruence.
        -- intros [E2 H]. destruct k as [|d k]; cbn in E2; injection E2 as E3 E4; [congruence|]. subst d.
           assert (Some (k', v') = Some (k, v)) as K by (apply IH; split; [assumption|]; intros K; apply H; now right). congruence.
      * split; [discriminate|]. intros [E2 H]. destruct k as [|d k]; cbn in E2; injection E2 as E3 E4; [congruence|]. subst d.
        assert (None = Some (k, v)) as K by (apply IH; split; [assumption|]; intros K; apply H; now right). congruence.
Qed.
