(** C57, C81: install_mode; C58: what muon install reports. *)
From Verif Require Import Base M_Path M_Install S_Install L_Install.
From Coq Require Import NArith.

(** A permission string is accepted exactly when it is what ls prints for some mode, and it yields
    that mode. *)
Theorem C57_permissions : forall s m, rwx_to_perm s = Some m <-> (m < 4096)%N /\ s = ls_l m.
Proof.
  intros s m. split; [apply rwx_sound|]. intros [L ->]. rewrite ls_bits. f_equal. now apply N.mod_small.
Qed.
Print Assumptions C57_permissions.
Example C57_ex : rwx_to_perm (B "rwsr-Sr-T") = Some 4068%N /\ rwx_to_perm (B "rwxr-xr-") = None /\ rwx_to_perm (B "rwxr-xs-x") = None.
Proof. vm_compute. auto. Qed.

(** ** C81 install_mode lists *)
(** A list of one to three elements is accepted exactly when it starts with a permission string
    or a boolean (which keeps the mode); longer lists are rejected. *)
Theorem C81_mode_list_partial : forall l, l <> [] ->
  install_mode (Some l) =
    match l with
    | MStr s :: rest => if Nat.leb (length rest) 2
                        then match rwx_to_perm s with Some m => ROk (Some m) | None => RErr end else RErr
    | MBool _ :: rest => if Nat.leb (length rest) 2 then ROk None else RErr
    | _ => RErr
    end.
Proof.
  intros [|e l] H; [congruence|]. unfold install_mode. cbn [length].
  destruct (Nat.ltb_spec 3 (S (length l))), (Nat.leb_spec (length l) 2); try lia; destruct e; reflexivity.
Qed.
Print Assumptions C81_mode_list_partial.
Example C81_ex : install_mode (Some [MStr (B "rw-r-----"); MStr (B "root")]) = ROk (Some 416%N) /\ install_mode (Some [MBool false]) = ROk None.
Proof. vm_compute. auto. Qed.
(** The empty list aborts the program. *)
Theorem C81_empty_list_refuted : install_mode (Some []) = RCrash.
Proof. reflexivity. Qed.
Print Assumptions C81_empty_list_refuted.

(** ** C58 *)
(** If no action fails, nothing stands in the way, and this is not a dry run, then everything the
    manifest lists has been installed and every script has run. *)
Theorem C58_no_failure_partial : forall w o cwd m r l,
  dry_run o = false ->
  (forall l d, exists_ w l d = true -> is_dir w l d = true) ->
  (forall t n tr, In t (targets m) -> In (n, tr) (entries_of w (tsrc t)) -> plain tr) ->
  install_run w o cwd (Loaded m) = Some (r, l) -> clean l ->
  installed w o cwd m l.
Proof.
  intros w o cwd m r l Hd Hob Hpl H C.
  assert (Main : forall dd full,
    match each (install_iter w o dd) (targets m) [] with
    | None => None
    | Some (_, l) => match each (install_script w o dd (prefix m) full) (scripts m) l with
                     | None => None | Some (_, l') => Some (true, l') end end = Some (r, l) ->
    (forall t, In t (targets m) -> exists d, full_dest dd (tdest t) = Some d /\ in_place w t d l) /\
    (forall s, In s (scripts m) -> ran s l)).
  { intros dd full E.
    destruct (each (install_iter w o dd) (targets m) []) as [[b1 l1]|] eqn:E1; [|discriminate E].
    destruct (each (install_script w o dd (prefix m) full) (scripts m) l1) as [[b2 l2]|] eqn:E2; [|discriminate E].
    injection E as _ <-.
    set (R := fun (t : target) (l : log) => exists d, full_dest dd (tdest t) = Some d /\ in_place w t d l).
    assert (M1 : meets [] (each (install_iter w o dd) (targets m) []) (fun l' => forall t, In t (targets m) -> R t l') False).
    { apply each_meets.
      - intros t l0 k (d & D1 & D2). exists d. split; [exact D1|now apply in_place_app].
      - intros t l0 Hi. destruct (full_dest dd (tdest t)) as [d|] eqn:Ed.
        + eapply meets_weaken; [| |apply (install_iter_meets w o dd t l0 d Hd Ed)].
          * intros l' X. exists d. auto.
          * intros [(l' & d' & X & Y)|(_ & n & tr & X & Y)]; [apply Hob in X; congruence|]. apply Y. eapply Hpl; eauto.
        + unfold install_iter. rewrite Ed. destruct (match tkind t with KSymlink | KEmptydir => false | _ => negb (path_is_absolute (tsrc t)) end); exact I. }
    assert (M2 : meets l1 (each (install_script w o dd (prefix m) full) (scripts m) l1) (fun l' => forall s, In s (scripts m) -> ran s l') False).
    { apply each_meets.
      - intros s l0 k [env D]. exists env. now apply done_app.
      - intros s l0 _. now apply script_meets. }
    rewrite E1 in M1. rewrite E2 in M2. cbn [meets] in M1, M2.
    assert (C1 : exists k, l2 = l1 ++ k /\ clean k /\ forall s, In s (scripts m) -> ran s l2).
    { destruct b2; destruct M2 as (k & Ek & X); [exists k; tauto|]. exfalso. subst l2. apply clean_app in C. tauto. }
    destruct C1 as (k & -> & Ck & Hs). apply clean_app in C. destruct C as [C1 _].
    split; [|exact Hs]. intros t Hi. destruct b1; destruct M1 as (k1 & Ek1 & X).
    - destruct X as [_ X]. destruct (X t Hi) as (d & D1 & D2). exists d. split; [exact D1|now apply in_place_app].
    - cbn in Ek1. subst k1. tauto. }
  unfold install_run in H. destruct (destdir o) as [dd|] eqn:Edd.
  - destruct (path_make_absolute cwd dd) as [abs|] eqn:Ea; [|discriminate H].
    destruct (path_join_absolute abs (prefix m)) as [full|]; [|discriminate H].
    destruct (Main _ _ H) as [H1 H2]. split; [|exact H2]. intros t Hi. destruct (H1 t Hi) as (d & D1 & D2). exists d. split; [|exact D2].
    unfold goes_to. rewrite Edd. exists abs. split; [exact Ea|exact D1].
  - destruct (Main _ _ H) as [H1 H2]. split; [|exact H2]. intros t Hi. destruct (H1 t Hi) as (d & D1 & D2). exists d. split; [|exact D2].
    unfold goes_to. rewrite Edd. cbn in D1. congruence.
Qed.
Print Assumptions C58_no_failure_partial.
(** One target: it reports success only if it is in place. *)
Theorem C58_target_partial : forall w o dd t l l' d,
  dry_run o = false -> full_dest dd (tdest t) = Some d ->
  install_iter w o dd t l = Some (true, l') -> in_place w t d l'.
Proof.
  intros w o dd t l l' d Hd Hf H. pose proof (install_iter_meets w o dd t l d Hd Hf) as M. rewrite H in M. now destruct M as (k & _ & _ & X).
Qed.
Print Assumptions C58_target_partial.
(** The command fails only when the manifest cannot be opened ... *)
Theorem C58_false_only_if_unopened_partial : forall w o cwd f l,
  install_run w o cwd f = Some (false, l) -> f = CannotOpen.
Proof.
  intros w o cwd [| | |m] l H; [reflexivity|discriminate H|discriminate H|]. exfalso. unfold install_run in H.
  destruct (destdir o) as [dd|]; [destruct (path_make_absolute cwd dd) as [abs|]; [destruct (path_join_absolute abs (prefix m)) as [full|]|]|]; try discriminate H;
  (destruct (each _ (targets m) []) as [[b1 l1]|]; [|discriminate H]; destruct (each _ (scripts m) l1) as [[b2 l2]|]; discriminate H).
Qed.
Print Assumptions C58_false_only_if_unopened_partial.

Definition C58_world (does_ : op -> bool) : world :=
  {| does := fun _ o => does_ o; exists_ := fun _ _ => false; is_dir := fun _ _ => false;
     entries_of := fun p => if beqb p (B "/src/data") then [(B "a.txt", TFile); (B "sub", TDir [(B "b.txt", TFile); (B "skip", TFile)])] else [] |}.
Definition C58_manifest : manifest :=
  {| targets := [{| tkind := KDefault; tsrc := B "/src/prog"; tdest := B "/usr/bin/prog"; tperm := Some 493%N; tbuild := true; texdirs := []; texfiles := [] |};
                 {| tkind := KSubdir; tsrc := B "/src/data"; tdest := B "/usr/share/d"; tperm := None; tbuild := false; texdirs := []; texfiles := [B "sub/skip"] |}];
     scripts := [{| can_dry_run := false; cmdline := [B "/src/post.sh"] |}]; prefix := B "/usr" |}.
Definition C58_options : options := {| destdir := Some (B "/tmp/root"); dry_run := false |}.
Example C58_ex :
  exists l, install_run (C58_world (fun _ => true)) C58_options (B "/src/build") (Loaded C58_manifest) = Some (true, l) /\ clean l /\ length l = 11.
Proof. eexists. split; [vm_compute; reflexivity|]. split; [repeat constructor|reflexivity]. Qed.

(** ... so a failing copy, a failing script and an unreadable manifest are all reported as success. *)
Theorem C58_failures_reported_refuted :
  (exists w m l, install_run w C58_options (B "/b") (Loaded m) = Some (true, l) /\ ~ installed w C58_options (B "/b") m l /\
     In (CopyFile (B "/src/prog") (B "/tmp/root/usr/bin/prog"), false) l) /\
  (exists w m l, install_run w C58_options (B "/b") (Loaded m) = Some (true, l) /\
     exists s, In s (scripts m) /\ ~ ran s l) /\
  (forall w o cwd, install_run w o cwd CannotLoad = Some (true, [])).
Proof.
  split; [|split].
  - exists (C58_world (fun o => match o with CopyFile _ _ => false | _ => true end)), C58_manifest.
    eexists. split; [vm_compute; reflexivity|]. split; [|right; left; reflexivity].
    intros [H _]. destruct (H _ (or_introl eq_refl)) as (d & _ & [[[X|X] _] _]); vm_compute in X; intuition discriminate.
  - exists (C58_world (fun o => match o with RunScript _ _ => false | _ => true end)), C58_manifest.
    eexists. split; [vm_compute; reflexivity|]. eexists. split; [left; reflexivity|]. intros [env X]. vm_compute in X. intuition discriminate.
  - reflexivity.
Qed.
Print Assumptions C58_failures_reported_refuted.
