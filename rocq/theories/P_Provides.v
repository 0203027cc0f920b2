(** C145: what wrap files provide. *)
From Coq Require Import Permutation.
From Verif Require Import Base M_Wrap S_Wrap M_Provides S_Provides L_Provides.
Local Arguments B _ : simpl never.

(** All wrap files of a directory are loaded exactly if each is acceptable and says something in
    each line of its section [provide]. *)
Theorem C145_loaded : forall fs : list entry,
  Forall (fun f : entry => forall ls, snd f = Some (Some ls) -> in_order None ls) fs ->
  ((exists t, load_all fs = Some t) <-> Forall entry_ok fs).
Proof. intros fs F. exact (proj1 (load_each fs ([], []) F)). Qed.
Print Assumptions C145_loaded.

(** Then for each name there is what the last wrap file that mentions it says, and nothing else. *)
Theorem C145_provided : forall (fs : list entry) deps programs,
  Forall (fun f : entry => forall ls, snd f = Some (Some ls) -> in_order None ls) fs ->
  load_all fs = Some (deps, programs) ->
  forall k, tget k deps = last_about k (flat_map (entry_gives deps_of) fs)
         /\ tget k programs = last_about k (flat_map (entry_gives programs_of) fs).
Proof.
  intros fs deps programs F H k. destruct (proj2 (load_each fs ([], []) F) _ H) as (A & C). cbn [fst snd] in A, C.
  rewrite (A k), (C k). cbn [tget].
  split; [destruct (last_about k (flat_map (entry_gives deps_of) fs))|destruct (last_about k (flat_map (entry_gives programs_of) fs))]; reflexivity.
Qed.
Print Assumptions C145_provided.

(** What is found for a name that only one wrap file mentions does not depend on the order in
    which the file system lists them. *)
Theorem C145_any_order_partial : forall (fs gs : list entry) t u k f0,
  Forall (fun f : entry => forall ls, snd f = Some (Some ls) -> in_order None ls) fs ->
  Permutation fs gs -> load_all fs = Some t -> load_all gs = Some u ->
  (forall f, In f fs -> f = f0 \/ (~ In k (map fst (entry_gives deps_of f)) /\ ~ In k (map fst (entry_gives programs_of f)))) ->
  tget k (fst t) = tget k (fst u) /\ tget k (snd t) = tget k (snd u).
Proof.
  intros fs gs [d e] [d' e'] k f0 F P Hf Hg One. cbn [fst snd].
  assert (G : Forall (fun f : entry => forall ls, snd f = Some (Some ls) -> in_order None ls) gs)
    by (rewrite Forall_forall in *; intros f I; apply F; exact (Permutation_in f (Permutation_sym P) I)).
  destruct (C145_provided fs d e F Hf k) as (-> & ->). destruct (C145_provided gs d' e' G Hg k) as (-> & ->).
  assert (Nn : forall es, ~ In k (map fst es) -> last_about k es = None).
  { induction es as [|[a v] es IH]; intros N; [reflexivity|]. cbn [last_about map fst In] in *. rewrite IH by tauto.
    destruct (beqb_spec a k) as [->|]; [tauto|reflexivity]. }
  assert (X : forall of : bytes -> list item -> list (bytes * list bytes),
    (forall f, In f fs -> f = f0 \/ last_about k (entry_gives of f) = None) ->
    last_about k (flat_map (entry_gives of) fs) = last_about k (flat_map (entry_gives of) gs)).
  { intros of H. assert (H' : forall f, In f gs -> f = f0 \/ last_about k (entry_gives of f) = None)
      by (intros f I; apply H; exact (Permutation_in f (Permutation_sym P) I)).
    destruct (last_about k (flat_map (entry_gives of) gs)) as [v|] eqn:E.
    - apply (last_one _ k v f0 gs H') in E as (I & E). apply (last_one _ k v f0 fs H). split; [|exact E].
      exact (Permutation_in f0 (Permutation_sym P) I).
    - destruct (last_about k (flat_map (entry_gives of) fs)) as [v|] eqn:E2; [|reflexivity]. exfalso.
      apply (last_one _ k v f0 fs H) in E2 as (I & E2).
      assert (Y : last_about k (flat_map (entry_gives of) gs) = Some v)
        by (apply (last_one _ k v f0 gs H'); split; [exact (Permutation_in f0 P I)|exact E2]). congruence. }
  split; apply X; intros f I; destruct (One f I) as [-> | (N1 & N2)]; [left; reflexivity|right; apply Nn; assumption|left; reflexivity|right; apply Nn; assumption].
Qed.
Print Assumptions C145_any_order_partial.

Definition H (s : string) : item := (Some (B s), None).
Definition L (s k v : string) : item := (Some (B s), Some (B k, B v)).
Definition foo : entry := (B "foo.wrap", Some (Some [H "wrap-file"; L "wrap-file" "directory" "foo-1";
  H "provide"; L "provide" "dependency_names" "foo, foo-glib"; L "provide" "bar" "bar_dep"; L "provide" "program_names" "foo-gen"])).
Definition baz : entry := (B "baz.wrap", Some (Some [H "provide"; L "provide" "bar" "dep"])).
Definition readme : entry := (B "README", Some None).
Definition sub : entry := (B "foo-1", None).

Example C145_ex : Forall (fun f : entry => forall ls, snd f = Some (Some ls) -> in_order None ls) [readme; foo; sub]
  /\ load_all [readme; foo; sub]
     = Some ([(B "foo", [B "foo"]); (B "foo-glib", [B "foo"]); (B "bar", [B "foo"; B "bar_dep"])], [(B "foo-gen", [B "foo"])]).
Proof.
  split; [|vm_compute; reflexivity].
  repeat (constructor; [intros ls E; try discriminate; injection E as <-; cbn -[B]; repeat split; try discriminate|]). constructor.
Qed.

(** If two mention it, it does. *)
Theorem C145_any_order_refuted : exists fs gs t u k, Permutation fs gs
  /\ Forall (fun f : entry => forall ls, snd f = Some (Some ls) -> in_order None ls) fs
  /\ load_all fs = Some t /\ load_all gs = Some u /\ tget k (fst t) <> tget k (fst u).
Proof.
  exists [foo; baz], [baz; foo]. eexists. eexists. exists (B "bar"). split; [apply perm_swap|]. split.
  - repeat (constructor; [intros ls E; injection E as <-; cbn -[B]; repeat split; try discriminate|]). constructor.
  - split; [vm_compute; reflexivity|]. split; [vm_compute; reflexivity|]. vm_compute. discriminate.
Qed.
Print Assumptions C145_any_order_refuted.

(** A comma at the end of a list provides the empty name. *)
Example C145_empty_name : exists t, load_all [(B "a.wrap", Some (Some [H "provide"; L "provide" "dependency_names" "a,"]))] = Some t
  /\ tget [] (fst t) = Some [B "a"].
Proof. eexists. split; vm_compute; reflexivity. Qed.
