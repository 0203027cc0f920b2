(** Lemmas about the variables of generated pkg-config files. *)
From Coq Require Import List Lia.
From Verif Require Import Base M_Path M_Escape M_Pkgconf S_Pkgconf L_Pkgconf.
Import ListNotations.
Local Arguments B _ : simpl never.

Lemma look_spec : forall ds key val t,
  let t1 := look_at_dirs ds key val t in
  (forall x, In x (refd t) -> In x (refd t1))
  /\ (forall d r, In d ds -> val = var_ref d ++ r -> In d (refd t1))
  /\ (forall x, In x (added t1) -> In x (added t) \/ x = key).
Proof.
  induction ds as [|d ds IH]; intros key val t; cbn [look_at_dirs].
  - cbn. split; [tauto|]. split; [intros d r []|tauto].
  - set (t2 := if beqb key d then {| refd := refd t; added := d :: added t |} else t).
    assert (R2 : refd t2 = refd t) by (unfold t2; destruct (beqb key d); reflexivity).
    assert (A2 : forall x, In x (added t2) -> In x (added t) \/ x = key).
    { unfold t2. intros x. destruct (beqb_spec key d) as [<-|_]; [|tauto]. cbn. intuition. }
    set (t3 := if mem d (refd t2) then t2
               else if starts_with (var_ref d) val
                    then {| refd := d :: B "prefix" :: refd t2; added := added t2 |} else t2).
    assert (A3 : added t3 = added t2)
      by (unfold t3; destruct (mem d (refd t2)); [|destruct (starts_with (var_ref d) val)]; reflexivity).
    assert (R3 : forall x, In x (refd t2) -> In x (refd t3)).
    { intros x I0. unfold t3. destruct (mem d (refd t2)); [exact I0|].
      destruct (starts_with (var_ref d) val); [cbn; tauto|exact I0]. }
    destruct (IH key val t3) as (P1 & P2 & P3). fold t2. fold t3. split; [|split].
    + intros x I0. apply P1, R3. rewrite R2. exact I0.
    + intros d' r [<-|I0] E; [|exact (P2 d' r I0 E)]. apply P1. unfold t3.
      destruct (mem d (refd t2)) eqn:M; [apply mem_spec; exact M|].
      assert (St : starts_with (var_ref d) val = true) by (apply starts_with_spec; eauto).
      rewrite St. left. reflexivity.
    + intros x I0. destruct (P3 x I0) as [J|J]; [|right; exact J]. rewrite A3 in J. exact (A2 x J).
Qed.

Definition three : list bytes := [B "prefix"; B "libdir"; B "includedir"].

Definition given_value (e : bool) (kv d : bytes * bytes) : Prop :=
  fst d = fst kv /\ var_value e (snd kv) = Good (snd d).

Lemma dict_spec : forall e l t t1 ds, process_dict e false l t = Good (t1, ds) ->
  (forall x, In x (refd t) -> In x (refd t1))
  /\ (forall k val d r, In (k, val) l -> In d diropts -> val = var_ref d ++ r -> In d (refd t1))
  /\ (forall x, In x (added t1) -> In x (added t) \/ In x (map fst l))
  /\ (forall k val, In (k, val) l -> ~ In k three)
  /\ Forall2 (given_value e) l ds.
Proof.
  induction l as [|[k val] l IH]; intros t t1 ds H; cbn [process_dict] in H.
  - injection H as <- <-. split; [tauto|]. split; [intros ? ? ? ? []|]. split; [tauto|].
    split; [intros ? ? []|constructor].
  - unfold declare_var in H. cbn [negb andb] in H.
    change [B "prefix"; B "libdir"; B "includedir"] with three in H.
    destruct (mem k three) eqn:M; [discriminate|].
    assert (K : ~ In k three) by (rewrite <- mem_spec; congruence).
    destruct (var_value e val) as [v| |] eqn:E; try discriminate. cbn [rbind] in H.
    destruct (process_dict e false l (look_at_dirs diropts k val t)) as [[t2 ds2]| |] eqn:E2;
      try discriminate. cbn [rbind] in H. injection H as <- <-.
    destruct (IH _ _ _ E2) as (P1 & P2 & P3 & P4 & P5).
    destruct (look_spec diropts k val t) as (L1 & L2 & L3). split; [|split; [|split; [|split]]].
    + intros x I0. apply P1, L1, I0.
    + intros k' val' d r [[= <- <-]|I0] D E'; [apply P1; exact (L2 d r D E')|].
      exact (P2 k' val' d r I0 D E').
    + intros x I0. cbn. destruct (P3 x I0) as [J|J]; [|tauto]. destruct (L3 x J) as [J'| ->]; tauto.
    + intros k' val' [[= <- <-]|I0]; [exact K|exact (P4 k' val' I0)].
    + constructor; [split; [reflexivity|exact E]|exact P5].
Qed.

Lemma dict_skip : forall e l t t1 ds, process_dict e true l t = Good (t1, ds) -> t1 = t.
Proof.
  induction l as [|[k val] l IH]; intros t t1 ds H; cbn [process_dict] in H.
  - injection H as <- <-. reflexivity.
  - unfold declare_var in H. cbn [negb andb] in H.
    destruct (var_value e val) as [v| |]; try discriminate. cbn [rbind] in H.
    destruct (process_dict e true l t) as [[t2 ds2]| |] eqn:E2; try discriminate.
    cbn [rbind] in H. injection H as <- _. exact (IH _ _ _ E2).
Qed.

(** the variables that are given *)
Definition split_rel (s : bytes) (kv : bytes * bytes) : Prop :=
  s = fst kv ++ "="%char :: snd kv /\ ~ In "="%char (fst kv).

Lemma list_dict : forall e d l t t1 ds, process_list e d l t = Good (t1, ds) ->
  exists kvs, Forall2 split_rel l kvs /\ process_dict e d kvs t = Good (t1, ds).
Proof.
  intros e d. induction l as [|s l IH]; intros t t1 ds H; cbn [process_list] in H.
  - exists []. split; [constructor|exact H].
  - unfold split_var in H. destruct (break_at "="%char s) as [k [|c v]] eqn:Eb; [discriminate|].
    cbn [rbind] in H.
    destruct (declare_var e d (k, v) t) as [[t2 d2]| |] eqn:E1; try discriminate. cbn [rbind] in H.
    destruct (process_list e d l t2) as [[t3 ds3]| |] eqn:E2; try discriminate. cbn [rbind] in H.
    destruct (IH _ _ _ E2) as (kvs & F & E3). exists ((k, v) :: kvs). split.
    + constructor; [|exact F]. pose proof (break_at_app _ _ _ _ Eb) as A.
      destruct (break_at_rest _ _ _ _ Eb) as [R|(b & R)]; [discriminate|]. injection R as -> ->.
      split; [exact A|]. cbn. exact (break_at_notin _ _ _ _ Eb).
    + cbn [process_dict]. rewrite E1. cbn [rbind]. rewrite E3. cbn [rbind]. exact H.
Qed.

Definition pairs_of (x : vars) (kvs : list (bytes * bytes)) : Prop :=
  match x with VDict l => kvs = l | VList l => Forall2 split_rel l kvs end.

Lemma vars_dict : forall e d x t t1 ds, process_vars e d x t = Good (t1, ds) ->
  exists kvs, pairs_of x kvs /\ process_dict e d kvs t = Good (t1, ds).
Proof.
  intros e d [l|l] t t1 ds H; cbn [process_vars pairs_of] in *.
  - exact (list_dict _ _ _ _ _ _ H).
  - exists l. split; [reflexivity|exact H].
Qed.

Lemma split_unique : forall k v k' v' : bytes, ~ In "="%char k -> ~ In "="%char k' ->
  k ++ "="%char :: v = k' ++ "="%char :: v' -> k = k' /\ v = v'.
Proof.
  induction k as [|c k IH]; intros v [|c' k'] v' N1 N2 E; cbn in E.
  - injection E as ->. split; reflexivity.
  - injection E as <- _. destruct N2. left. reflexivity.
  - injection E as -> _. destruct N1. left. reflexivity.
  - injection E as -> E. destruct (IH v k' v') as (-> & ->).
    + intros X. apply N1. right. exact X.
    + intros X. apply N2. right. exact X.
    + exact E.
    + split; reflexivity.
Qed.

Lemma pairs_gives : forall x kvs, pairs_of x kvs -> forall k val, gives x k val <-> In (k, val) kvs.
Proof.
  intros [l|l] kvs H k val; cbn [pairs_of] in H.
  - split.
    + intros G. inversion G as [l' k' v' I0 N0|]; subst. clear G.
      induction H as [|s kv l kvs (E & N1) F IH]; [destruct I0|].
      destruct I0 as [->|I0]; [|right; exact (IH I0)].
      left. destruct kv as [k' v']. cbn in *.
      destruct (split_unique _ _ _ _ N1 N0 (eq_sym E)) as (-> & ->). reflexivity.
    + intros I0. assert (exists s, In s l /\ split_rel s (k, val)) as (s & Is & E & N0).
      { induction H as [|s kv l kvs R F IH]; [destruct I0|].
        destruct I0 as [->|I0]; [exists s; split; [left; reflexivity|exact R]|].
        destruct (IH I0) as (s' & J & R'). exists s'. split; [right; exact J|exact R']. }
      cbn in *. subst s. apply in_list; assumption.
  - subst kvs. split; [intros G; inversion G; assumption|apply in_dict].
Qed.

Lemma given_nil : forall e l ds, Forall2 (given_value e) l ds -> map fst ds = map fst l.
Proof.
  intros e l ds F. induction F as [|kv d l ds (E & _) F IH]; [reflexivity|]. cbn. rewrite E, IH.
  reflexivity.
Qed.

(** ** generate() *)
Section Opt.
Variable opt : bytes -> bytes.

Lemma builtin_spec : forall ds t r, builtin_vars opt ds t = Good r ->
  map fst r = filter (fun d => mem d (refd t) && negb (mem d (added t))) ds
  /\ Forall (fun kv => builtin_var opt (fst kv) = Good kv) r.
Proof.
  induction ds as [|d ds IH]; intros t r H; cbn [builtin_vars] in H.
  - injection H as <-. split; [reflexivity|constructor].
  - cbn [filter]. destruct (mem d (refd t) && negb (mem d (added t))).
    + destruct (builtin_var opt d) as [kv| |] eqn:E; try discriminate. cbn [rbind] in H.
      destruct (builtin_vars opt ds t) as [r2| |] eqn:E2; try discriminate. cbn [rbind] in H.
      injection H as <-. destruct (IH _ _ E2) as (A & F).
      assert (K : fst kv = d).
      { unfold builtin_var in E. destruct (var_value true _); try discriminate.
        cbn [rbind] in E. injection E as <-. reflexivity. }
      split; [cbn; rewrite K, A; reflexivity|]. constructor; [rewrite K; exact E|exact F].
    + exact (IH _ _ H).
Qed.

(** the two halves of a call *)
Lemma generate_inv : forall c t t1 f, generate opt c t = Good (t1, f) ->
  exists kv1 kv2 t0 t2 vs1 vs2,
    pairs_of (g_vars c) kv1 /\ pairs_of (g_unescaped c) kv2
    /\ added t0 = added t
    /\ refd t0 = (if g_dataonly c then []
                  else B "prefix" :: B "includedir"
                       :: match f_libs f Pub ++ f_libs f Priv with [] => [] | _ => [B "libdir"] end)
    /\ process_dict true (g_dataonly c) kv1 t0 = Good (t2, vs1)
    /\ process_dict false (g_dataonly c) kv2 t2 = Good (t1, vs2)
    /\ builtin_vars opt diropts t1 = Good (f_builtin f)
    /\ f_vars f = vs1 ++ vs2.
Proof.
  intros c t t1 f H. unfold generate in H.
  destruct (match g_subdirs c with Some ds => subdirs_cflags ds | None => Good [B "-I${includedir}"] end)
    as [cf| |]; try discriminate. cbn [rbind] in H.
  destruct (given_libs c (push_cflags cf acc0)) as [a| |]; try discriminate. cbn [rbind] in H.
  destruct (remove_dups (reqs a Pub) (exclude a)) as [rpub ex1].
  destruct (remove_dups (libs a Pub) ex1) as [lpub ex2].
  destruct (remove_dups (reqs a Priv) ex2) as [rpriv ex3].
  destruct (remove_dups (libs a Priv) ex3) as [lpriv ex4].
  destruct (with_dir opt c (internal a Pub) lpub) as [lpub'| |]; try discriminate. cbn [rbind] in H.
  destruct (with_dir opt c (internal a Priv) lpriv) as [lpriv'| |]; try discriminate. cbn [rbind] in H.
  destruct (process_reqs (g_requires c) rpub) as [rpub'| |]; try discriminate. cbn [rbind] in H.
  destruct (process_reqs (g_requires_private c) rpriv) as [rpriv'| |]; try discriminate. cbn [rbind] in H.
  match type of H with rbind (process_vars _ _ _ ?t0) _ = _ => set (t0' := t0) in H end.
  destruct (process_vars true (g_dataonly c) (g_vars c) t0') as [[t2 vs1]| |] eqn:E1; try discriminate.
  cbn [rbind] in H.
  destruct (process_vars false (g_dataonly c) (g_unescaped c) t2) as [[t3 vs2]| |] eqn:E2;
    try discriminate. cbn [rbind] in H.
  destruct (builtin_vars opt diropts t3) as [bs| |] eqn:E3; try discriminate. cbn [rbind] in H.
  injection H as <- <-.
  destruct (vars_dict _ _ _ _ _ _ E1) as (kv1 & P1 & D1).
  destruct (vars_dict _ _ _ _ _ _ E2) as (kv2 & P2 & D2).
  exists kv1, kv2, t0', t2, vs1, vs2. cbn [f_libs f_builtin f_vars].
  repeat (split; [first [assumption|reflexivity]|]). reflexivity.
Qed.

Lemma generate_added : forall c t t1 f, generate opt c t = Good (t1, f) ->
  forall x, In x (added t1) -> In x (added t)
    \/ (g_dataonly c = false /\ ~ In x three /\ exists val, has_var c x val).
Proof.
  intros c t t1 f H x I0.
  destruct (generate_inv _ _ _ _ H) as (kv1 & kv2 & t0 & t2 & vs1 & vs2 & P1 & P2 & A0 & _ & D1 & D2 & _).
  destruct (g_dataonly c).
  - apply dict_skip in D2, D1. subst t2 t1. rewrite A0 in I0. left. exact I0.
  - destruct (dict_spec _ _ _ _ _ D1) as (_ & _ & X1 & K1 & _).
    destruct (dict_spec _ _ _ _ _ D2) as (_ & _ & X2 & K2 & _).
    destruct (X2 x I0) as [J|J].
    + destruct (X1 x J) as [J'|J']; [left; rewrite <- A0; exact J'|right].
      apply in_map_iff in J' as ([k val] & <- & J'). split; [reflexivity|].
      split; [exact (K1 _ _ J')|]. exists val. left. apply (pairs_gives _ _ P1). exact J'.
    + right. apply in_map_iff in J as ([k val] & <- & J). split; [reflexivity|].
      split; [exact (K2 _ _ J)|]. exists val. right. apply (pairs_gives _ _ P2). exact J.
Qed.

Lemma all_added : forall cs t t1 fs, generate_all opt cs t = Good (t1, fs) ->
  forall x, In x (added t1) -> In x (added t)
    \/ (~ In x three /\ exists b val, In b cs /\ g_dataonly b = false /\ has_var b x val).
Proof.
  induction cs as [|c cs IH]; intros t t1 fs H x I0; cbn [generate_all] in H.
  - injection H as <- _. left. exact I0.
  - destruct (generate opt c t) as [[t2 f]| |] eqn:E; try discriminate. cbn [rbind] in H.
    destruct (generate_all opt cs t2) as [[t3 fs3]| |] eqn:E2; try discriminate. cbn [rbind] in H.
    injection H as <- _. destruct (IH _ _ _ E2 x I0) as [J|(N0 & b & val & Ib & Db & G)].
    + destruct (generate_added _ _ _ _ E x J) as [J'|(D & N0 & val & G)]; [left; exact J'|right].
      split; [exact N0|]. exists c, val. split; [left; reflexivity|]. split; assumption.
    + right. split; [exact N0|]. exists b, val. split; [right; exact Ib|]. split; assumption.
Qed.

Lemma declared : forall c t t1 f d, generate opt c t = Good (t1, f) -> In d diropts ->
  In d (refd t1) -> ~ In d (added t) -> In d (map fst (f_builtin f ++ f_vars f)).
Proof.
  intros c t t1 f d H D R N0.
  destruct (generate_inv _ _ _ _ H) as (kv1 & kv2 & t0 & t2 & vs1 & vs2 & P1 & P2 & A0 & _ & D1 & D2 & Bu & V).
  destruct (builtin_spec _ _ _ Bu) as (M & _). rewrite map_app, in_app_iff, M, filter_In.
  destruct (mem d (added t1)) eqn:Ma.
  - right. apply mem_spec in Ma. rewrite V, map_app, in_app_iff. destruct (g_dataonly c).
    + apply dict_skip in D2, D1. subst t2 t1. rewrite A0 in Ma. destruct (N0 Ma).
    + destruct (dict_spec _ _ _ _ _ D1) as (_ & _ & X1 & _ & F1).
      destruct (dict_spec _ _ _ _ _ D2) as (_ & _ & X2 & _ & F2).
      rewrite (given_nil _ _ _ F1), (given_nil _ _ _ F2).
      destruct (X2 d Ma) as [J|J]; [|right; exact J]. destruct (X1 d J) as [J'|J']; [|left; exact J'].
      rewrite A0 in J'. destruct (N0 J').
  - left. split; [exact D|]. apply mem_spec in R. rewrite R. reflexivity.
Qed.

Lemma referenced : forall c t t1 f k val d r, generate opt c t = Good (t1, f) -> g_dataonly c = false ->
  has_var c k val -> In d diropts -> val = var_ref d ++ r -> In d (refd t1).
Proof.
  intros c t t1 f k val d r H Da G D E.
  destruct (generate_inv _ _ _ _ H) as (kv1 & kv2 & t0 & t2 & vs1 & vs2 & P1 & P2 & A0 & _ & D1 & D2 & Bu & V).
  rewrite Da in D1, D2. destruct (dict_spec _ _ _ _ _ D1) as (_ & Y1 & _).
  destruct (dict_spec _ _ _ _ _ D2) as (Z2 & Y2 & _). destruct G as [G|G].
  - apply (pairs_gives _ _ P1) in G. apply Z2. exact (Y1 _ _ _ _ G D E).
  - apply (pairs_gives _ _ P2) in G. exact (Y2 _ _ _ _ G D E).
Qed.

Lemma started : forall c t t1 f d, generate opt c t = Good (t1, f) -> g_dataonly c = false ->
  d = B "prefix" \/ d = B "includedir" \/ (d = B "libdir" /\ exists v, f_libs f v <> []) ->
  In d (refd t1).
Proof.
  intros c t t1 f d H Da C.
  destruct (generate_inv _ _ _ _ H) as (kv1 & kv2 & t0 & t2 & vs1 & vs2 & P1 & P2 & A0 & R0 & D1 & D2 & Bu & V).
  rewrite Da in D1, D2, R0. destruct (dict_spec _ _ _ _ _ D1) as (Z1 & _).
  destruct (dict_spec _ _ _ _ _ D2) as (Z2 & _). apply Z2, Z1. rewrite R0.
  destruct C as [->|[->|(-> & v & N0)]]; [left; reflexivity|right; left; reflexivity|].
  right. right. assert (E : f_libs f Pub ++ f_libs f Priv <> []).
  { intros E. apply app_eq_nil in E as (E1 & E2). destruct v; congruence. }
  destruct (f_libs f Pub ++ f_libs f Priv); [destruct (E eq_refl)|left; reflexivity].
Qed.
End Opt.

(** ** how the variables are read *)
Lemma expand_plain : forall n env c s, c <> "$"%char ->
  expand (S n) env (c :: s) = option_map (cons c) (expand n env s).
Proof.
  intros n env c s N0. cbn [expand].
  destruct c as [[] [] [] [] [] [] [] []]; try reflexivity. congruence.
Qed.

Lemma expand_ref : forall n env s, expand (S n) env ("$"%char :: "{"%char :: s)
  = let '(x, r) := break_at "}"%char s in
    match find (fun '(k, _) => beqb k x) env, expand n env (tl r) with
    | Some (_, v), Some t => Some (v ++ t)
    | _, _ => None
    end.
Proof. reflexivity. Qed.

Lemma expand_simple : forall s n env, ~ In "$"%char s -> length s < n -> expand n env s = Some s.
Proof.
  induction s as [|c s IH]; intros [|n] env N0 L; cbn [length] in L; try lia; [reflexivity|].
  rewrite expand_plain by (intros ->; apply N0; left; reflexivity).
  rewrite IH; [reflexivity|intros X; apply N0; right; exact X|lia].
Qed.

Lemma value_simple : forall env s, simple s -> value env s = Some s.
Proof. intros env s (N0 & _). apply expand_simple; [exact N0|lia]. Qed.

Lemma break_at_here : forall c l r, ~ In c l -> break_at c (l ++ c :: r) = (l, c :: r).
Proof.
  intros c l. induction l as [|x l IH]; intros r N0; cbn [app break_at].
  - rewrite ceqb_refl. reflexivity.
  - destruct (ceqb_spec x c) as [->|_]; [destruct N0; left; reflexivity|].
    rewrite IH; [reflexivity|intros X; apply N0; right; exact X].
Qed.

Lemma dir_chars : forall d, In d directories -> ~ In "}"%char d /\ simple d.
Proof.
  intros d H. assert (F : forallb (fun d => forallb (fun c => negb (ceqb c "}") && negb (ceqb c "$")
     && negb (ceqb c " ") && negb (ceqb c NL)) d) directories = true) by reflexivity.
  pose proof (proj1 (forallb_forall _ _) F d H) as G. cbv beta in G.
  assert (Q : forall c, In c d -> c <> "}"%char /\ c <> "$"%char /\ c <> " "%char /\ c <> NL).
  { intros c I0. pose proof (proj1 (forallb_forall _ _) G c I0) as E. cbv beta in E.
    repeat match type of E with (_ && _)%bool = true => apply andb_prop in E as [E ?] end.
    repeat split; intros ->; discriminate. }
  unfold simple. repeat split; intros X; apply Q in X; tauto.
Qed.

Lemma value_ref : forall env d v r, In d directories -> find (fun '(k, _) => beqb k d) env = Some (d, v) ->
  simple r -> value env (B "${" ++ d ++ B "}" ++ r) = Some (v ++ r).
Proof.
  intros env d v r D E (N0 & _). unfold value.
  change (B "${" ++ d ++ B "}" ++ r) with ("$"%char :: "{"%char :: d ++ "}"%char :: r).
  rewrite expand_ref, (break_at_here "}"%char d r (proj1 (dir_chars d D))). cbn [tl].
  rewrite E. rewrite expand_simple; [reflexivity|exact N0|].
  cbn [length]. rewrite app_length. cbn [length]. lia.
Qed.

Lemma escape_same : forall s, ~ In " "%char s -> ~ In NL s -> pkgconf_escape s = Some s.
Proof.
  unfold pkgconf_escape. induction s as [|c s IH]; intros N1 N2; [reflexivity|].
  cbn [simple_escape].
  assert (M : mem_char c (B " ") = false).
  { change (ceqb c " "%char || false = false). destruct (ceqb_spec c " "%char) as [->|_]; [|reflexivity].
    destruct N1. left. reflexivity. }
  rewrite M. destruct (ceqb_spec c NL) as [->|_]; [destruct N2; left; reflexivity|].
  rewrite IH; [reflexivity| |]; intros X; [apply N1|apply N2]; right; exact X.
Qed.

Lemma var_value_same : forall e s v, ~ In " "%char s -> ~ In NL s -> var_value e s = Good v -> v = s.
Proof.
  intros e s v N1 N2 H. unfold var_value in H. destruct e.
  - rewrite escape_same in H by assumption. cbn in H. injection H as ->. reflexivity.
  - injection H as ->. reflexivity.
Qed.

Lemma ref_chars : forall d r, In d directories -> simple r ->
  ~ In " "%char (B "${" ++ d ++ B "}" ++ r) /\ ~ In NL (B "${" ++ d ++ B "}" ++ r).
Proof.
  intros d r D (_ & R1 & R2). destruct (dir_chars d D) as (_ & _ & D1 & D2).
  assert (X1 : ~ In " "%char (B "${") /\ ~ In NL (B "${")) by (split; intros [X|[X|[]]]; discriminate).
  assert (X2 : ~ In " "%char (B "}") /\ ~ In NL (B "}")) by (split; intros [X|[]]; discriminate).
  rewrite !in_app_iff. tauto.
Qed.

Definition plain_value (val : bytes) : Prop :=
  simple val \/ exists d r, In d directories /\ val = B "${" ++ d ++ B "}" ++ r /\ simple r.

Lemma plain_same : forall e val v, plain_value val -> var_value e val = Good v -> v = val.
Proof.
  intros e val v [(_ & N1 & N2)|(d & r & D & -> & R)] H.
  - exact (var_value_same _ _ _ N1 N2 H).
  - destruct (ref_chars d r D R) as (N1 & N2). exact (var_value_same _ _ _ N1 N2 H).
Qed.

Section Reading.
Variable opt : bytes -> bytes.
Hypothesis simple_opts : forall d, In d directories -> simple (opt d).

Lemma builtin_value : forall d v, In d directories -> builtin_var opt d = Good (d, v) ->
  v = (if beqb d (B "prefix") then opt d else B "${" ++ B "prefix" ++ B "}" ++ B "/" ++ opt d).
Proof.
  intros d v D H. unfold builtin_var in H.
  destruct (var_value true _) as [v'| |] eqn:E; try discriminate. cbn [rbind] in H. injection H as ->.
  apply var_value_same in E; [exact E| |]; destruct (simple_opts d D) as (_ & N1 & N2);
    destruct (beqb d (B "prefix")); try assumption;
    change (B "${prefix}/" ++ opt d) with (B "${" ++ B "prefix" ++ B "}" ++ (B "/" ++ opt d)).
  all: apply ref_chars; [left; reflexivity|].
  all: split; [|split]; intros [X|X]; try discriminate; destruct (simple_opts d D) as (Q1 & Q2 & Q3); auto.
Qed.

Definition knows (env : list (bytes * bytes)) (d : bytes) : Prop :=
  find (fun '(k, _) => beqb k d) env = Some (d, dir_path opt d).

Lemma knows_cons : forall env d k v, knows env d -> k <> d -> knows ((k, v) :: env) d.
Proof.
  intros env d k v K N0. unfold knows. cbn [find]. destruct (beqb_spec k d) as [E|_]; [congruence|exact K].
Qed.

Lemma knows_new : forall env d, knows ((d, dir_path opt d) :: env) d.
Proof. intros env d. unfold knows. cbn [find]. rewrite beqb_refl. reflexivity. Qed.

Lemma knows_keep : forall env d k, knows env d -> knows ((k, dir_path opt k) :: env) d.
Proof.
  intros env d k K. destruct (beqb_spec k d) as [->|N0]; [apply knows_new|apply knows_cons; assumption].
Qed.

Lemma read_builtin : forall rest env, knows env (B "prefix") ->
  Forall (fun kv => In (fst kv) directories /\ fst kv <> B "prefix" /\ builtin_var opt (fst kv) = Good kv) rest ->
  exists env1, read_vars env rest = Some env1
    /\ (forall d, knows env d -> knows env1 d)
    /\ (forall d, In d (map fst rest) -> knows env1 d)
    /\ (forall kv, In kv env1 -> In kv env \/ (exists d, kv = (d, dir_path opt d))).
Proof.
  induction rest as [|[d v] rest IH]; intros env K F; cbn [read_vars map].
  - exists env. split; [reflexivity|]. split; [tauto|]. split; [intros d []|tauto].
  - inversion F as [|? ? (D & Np & E) F']; subst. cbn [fst] in D, Np, E.
    pose proof (builtin_value d v D E) as V. destruct (beqb_spec d (B "prefix")) as [X|_]; [congruence|].
    assert (R : value env v = Some (dir_path opt d)).
    { rewrite V. rewrite (value_ref env (B "prefix") (dir_path opt (B "prefix")) (B "/" ++ opt d));
        [|left; reflexivity|exact K|].
      - unfold dir_path. destruct (beqb_spec d (B "prefix")) as [X|_]; [congruence|]. reflexivity.
      - destruct (simple_opts d D) as (Q1 & Q2 & Q3). split; [|split]; intros [X|X]; try discriminate; auto. }
    rewrite R. destruct (IH ((d, dir_path opt d) :: env) (knows_keep _ _ d K) F') as (env1 & E1 & K1 & K2 & K3).
    exists env1. split; [exact E1|]. split; [|split].
    + intros d' K'. apply K1. apply knows_keep. exact K'.
    + intros d' [<-|I0]; [apply K1; apply knows_new|exact (K2 d' I0)].
    + intros kv I0. destruct (K3 kv I0) as [[<-|J]|J]; [right; eauto|left; exact J|right; exact J].
Qed.

Lemma read_given : forall vs env (ok : bytes -> Prop),
  (forall d, ok d -> In d directories /\ knows env d) ->
  Forall (fun kv => ~ In (fst kv) directories
                    /\ (simple (snd kv) \/ exists d r, ok d /\ snd kv = B "${" ++ d ++ B "}" ++ r /\ simple r)) vs ->
  exists env1, read_vars env vs = Some env1
    /\ (forall d, In d directories -> knows env d -> knows env1 d)
    /\ (forall kv, In kv env1 -> In kv env \/ ~ In (fst kv) directories)
    /\ (forall k s, In (k, s) vs -> simple s -> In (k, s) env1)
    /\ (forall k d r, In (k, B "${" ++ d ++ B "}" ++ r) vs -> ok d -> simple r ->
        In (k, dir_path opt d ++ r) env1)
    /\ (forall kv, In kv env -> In kv env1).
Proof.
  induction vs as [|[k s] vs IH]; intros env ok Ok F; cbn [read_vars].
  - exists env. split; [reflexivity|]. split; [tauto|]. split; [tauto|].
    split; [intros k s []|]. split; [intros k d r []|tauto].
  - inversion F as [|? ? (Nk & C) F']; subst. cbn [fst snd] in Nk, C.
    assert (V : exists v, value env s = Some v /\ (simple s -> v = s)
      /\ (forall d r, s = B "${" ++ d ++ B "}" ++ r -> ok d -> simple r -> v = dir_path opt d ++ r)).
    { destruct C as [C|(d & r & Od & -> & R)].
      - exists s. split; [apply value_simple; exact C|]. split; [reflexivity|].
        intros d r -> _ _. destruct C as (C & _). destruct C. left. reflexivity.
      - destruct (Ok d Od) as (D & K). exists (dir_path opt d ++ r).
        split; [exact (value_ref env d _ r D K R)|]. split.
        + intros (C & _). destruct C. left. reflexivity.
        + intros d' r' E Od' R'. destruct (Ok d' Od') as (D' & K').
          pose proof (value_ref env d _ r D K R) as V1. rewrite E in V1.
          rewrite (value_ref env d' _ r' D' K' R') in V1. injection V1 as ->. reflexivity. }
    destruct V as (v & V1 & V2 & V3). rewrite V1.
    assert (Ok' : forall d, ok d -> In d directories /\ knows ((k, v) :: env) d).
    { intros d Od. destruct (Ok d Od) as (D & K). split; [exact D|]. apply knows_cons; [exact K|].
      intros ->. exact (Nk D). }
    destruct (IH ((k, v) :: env) ok Ok' F') as (env1 & E1 & K1 & K2 & K3 & K4 & K5).
    exists env1. split; [exact E1|]. split; [|split; [|split; [|split]]].
    + intros d D K. apply K1; [exact D|]. apply knows_cons; [exact K|]. intros ->. exact (Nk D).
    + intros kv I0. destruct (K2 kv I0) as [[<-|J]|J]; [right; exact Nk|left; exact J|right; exact J].
    + intros k' s' [[= <- <-]|I0] Si; [|exact (K3 _ _ I0 Si)]. apply K5. left. rewrite (V2 Si). reflexivity.
    + intros k' d r [[= <- E]|I0] Od R; [|exact (K4 _ _ _ I0 Od R)]. apply K5. left.
      rewrite (V3 d r E Od R). reflexivity.
    + intros kv I0. apply K5. right. exact I0.
Qed.

Lemma read_app : forall a b env, read_vars env (a ++ b)
  = match read_vars env a with Some e => read_vars e b | None => None end.
Proof.
  induction a as [|[k s] a IH]; intros b env; cbn [app read_vars]; [reflexivity|].
  destruct (value env s); [apply IH|reflexivity].
Qed.

Lemma find_in : forall env d, knows env d -> In (d, dir_path opt d) env.
Proof. intros env d K. apply find_some in K as (I0 & _). exact I0. Qed.
End Reading.
