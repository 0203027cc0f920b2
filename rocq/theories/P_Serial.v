(** C62, C63: saving objects to files and loading them. *)
From Coq Require Import NArith.
From Verif Require Import Base M_Serial S_Serial L_Serial L_Dump.
Local Arguments B _ : simpl never.

(** A value that an object has can be saved, and loading the file into any workspace of a running
    program gives an object that has the same value, while all other objects keep theirs.
    Missing: what [fits] excludes, see [C62_refuted]; values that need 4 GiB and more. *)
Theorem C62_round_trip_partial : forall src o v,
  denotes src o v -> fits (autof src) v -> (room v + 1 < 2 ^ 32)%N ->
  exists n0 file, (forall n, n0 <= n -> dump n src o = Ok file) /\
    forall w, sane w ->
      exists n1 w' o', (forall n, n1 <= n -> load n w file = Ok (w', o')) /\
        sane w' /\ denotes w' o' v /\ (forall i x, denotes w i x -> denotes w' i x).
Proof.
  intros src o v H F R. destruct (round_trip src o v H F R) as (n0 & file & K & Q). exists n0, file. split; [exact K|].
  intros w S0. destruct (Q w S0) as (n1 & w' & o' & L & P). exists n1, w', o'. split; [exact L|]. split; [apply P|]. split; [eapply post_denotes; exact P|].
  intros i x D. destruct P as [G _]. refine (den_mono _ _ _ _ _ _ _ _ _ _ _ _ _ _ D).
  - intros j c E. exact (ag_c _ _ _ _ (g_agree _ _ _ G) _ _ E (fun q => q)).
  - intros j c E. exact (ag_e _ _ _ _ (g_agree _ _ _ G) _ _ E (fun q => q)).
  - intros j s. now apply (strat_grow (room v)).
  - intros j t. now rewrite (g_hash _ _ _ G).
Qed.
Print Assumptions C62_round_trip_partial.

(** {'a': [7, 'x']} *)
Definition ex_wk : wk :=
  Wk [B "a" ++ [NUL] ++ B "x" ++ [NUL]]
     [Simple 0 0; Str (InBucket 0 0) 1 0; Number 7; Str (InBucket 0 2) 1 0; Arr 2 5 5 2 true; Arr 3 0 0 0 false; Dict 1 1 1 0]
     [[(0, 0, 0); (0, 1, 4)]]%N [] [] None.
Definition ex_value : value := VDict [(B "a", VArray [VNumber 7; VString (B "x")])].
Example ex_meets : sane ex_wk /\ denotes ex_wk 6 ex_value /\ fits (autof ex_wk) ex_value /\ (room ex_value + 1 < 2 ^ 32)%N.
Proof.
  split; [|split; [|split]].
  - constructor; try reflexivity.
    + split; [discriminate|]. constructor; [|constructor]. apply Nat.leb_le; vm_compute; reflexivity.
    + repeat constructor; (eexists; split; [reflexivity|]; vm_compute; discriminate).
    + cbn [ex_wk elems full_but_last length]. unfold ELEMS_BUCKET. lia.
    + intros s o [].
  - eapply d_dict; [reflexivity|reflexivity|]. eapply e_last; [reflexivity|reflexivity|].
    eapply d_array; [reflexivity|]. eapply c_next; [apply d_number; reflexivity|reflexivity|]. apply c_last, d_string. reflexivity.
  - cbn [ex_value fits map fst]. repeat split; try (unfold string_fits; vm_compute; discriminate); try reflexivity. constructor; [intros []|constructor].
  - vm_compute. reflexivity.
Qed.

(** What is not saved as it is:
    - a string of 4095 bytes makes the program abort;
    - a feature option whose state is auto takes the state of auto_features, here disabled;
    - the kind of an option is lost. *)
Definition refute_string : wk := Wk [[]] [Simple 0 0; Str (OnHeap (repeat (ch 97) (N.to_nat 4095) ++ [NUL])) 4095 1] [[(0, 0, 0)%N]] [] [] None.
Definition refute_feature : wk := Wk [[]] [Simple 0 0; Simple 6 0] [[(0, 0, 0)%N]] [] [] (Some 2%N).
Definition refute_option : wk := Wk [[]] [Simple 0 0; Rec 25 [0; 0; 0; 0; 0; 0; 0; 0; 0; 2; 0; 0; 0]%N] [[(0, 0, 0)%N]] [] [] None.
Definition option_of_kind (k : N) : value := VOption VNull VNull VNull VNull VNull VNull VNull 0 0 k 0 0.
Theorem C62_refuted :
  (sane refute_string /\ denotes refute_string 1 (VString (repeat (ch 97) (N.to_nat 4095))) /\
   forall n, dump (S n) refute_string 1 = Abort) /\
  (sane refute_feature /\ denotes refute_feature 1 (VFeature 0) /\
   exists file w o, dump 3 refute_feature 1 = Ok file /\ load 3 bare file = Ok (w, o) /\ denotes w o (VFeature 2) /\ ~ denotes w o (VFeature 0)) /\
  (sane refute_option /\ denotes refute_option 1 (option_of_kind 2) /\
   exists file w o, dump 3 refute_option 1 = Ok file /\ load 3 bare file = Ok (w, o) /\ denotes w o (option_of_kind 0) /\ ~ denotes w o (option_of_kind 2)).
Proof.
  assert (Sn : forall cs a, Forall (fun c => is_str c = false \/ (exists l n f, c = Str (OnHeap l) n f)) cs -> sane (Wk [[]] (Simple 0 0 :: cs) [[(0, 0, 0)%N]] [] [] a)).
  { intros cs a F. constructor; try reflexivity.
    - split; [discriminate|]. constructor; [apply Nat.le_0_l|constructor].
    - cbn [objs]. constructor; [exact I|]. eapply Forall_impl; [|exact F]. intros c [H|(l & n & f & ->)]; [now destruct c|exact I].
    - cbn [elems full_but_last length]. unfold ELEMS_BUCKET. lia.
    - intros s o []. }
  split; [|split].
  - split; [apply Sn; constructor; [right; eauto|constructor]|]. split.
    + apply d_string. vm_compute. reflexivity.
    + intros n. vm_compute. reflexivity.
  - split; [apply Sn; constructor; [now left|constructor]|]. split; [eapply d_feature; reflexivity|].
    eexists _, _, _. split; [vm_compute; reflexivity|]. split; [vm_compute; reflexivity|]. split; [eapply d_feature; reflexivity|].
    intros H. inversion H as [| | |? ? E| | | | | | | | | | | | |]; subst. discriminate E.
  - split; [apply Sn; constructor; [now left|constructor]|]. split; [eapply d_option; [reflexivity|eapply d_null; reflexivity..]|].
    eexists _, _, _. split; [vm_compute; reflexivity|]. split; [vm_compute; reflexivity|]. split; [eapply d_option; [reflexivity|eapply d_null; reflexivity..]|].
    intros H. inversion H; subst. match goal with E : get _ _ = Some (Rec 25 _) |- _ => discriminate E end.
Qed.
Print Assumptions C62_refuted.

(** A file that was cut off at any place is rejected. *)
Theorem C63_truncated_dumps_are_rejected : forall src o v,
  denotes src o v -> fits (autof src) v -> (room v + 1 < 2 ^ 32)%N ->
  exists n0 file, (forall n, n0 <= n -> dump n src o = Ok file) /\
    forall part rest, file = part ++ rest -> rest <> [] -> forall n w, load n w part = Fail.
Proof.
  intros src o v H F R. destruct (dump_ok src o v H F) as (n0 & w1 & o1 & P & K). exists n0, (dumpw w1 o1). split; [exact K|].
  intros part rest E Ne n w. pose proof (load_wk_ok _ _ (writable_ok _ _ _ P R) []) as Rd. rewrite app_nil_r in Rd.
  destruct (stream_wk _ _ _ Rd) as (c & Ec & _ & Fc). rewrite app_nil_r in Ec. subst c. unfold load. now rewrite (Fc part rest E Ne).
Qed.
Print Assumptions C63_truncated_dumps_are_rejected.

(** A file is rejected unless it starts with "muondump" and the version 7. *)
Theorem C63_other_files_are_rejected : forall file n w,
  (forall rest, file <> B "muondump" ++ map ascii_of_nat [7; 0; 0; 0] ++ rest) -> load n w file = Fail.
Proof.
  intros file n w H. unfold load, load_wk, load_header.
  destruct (fread 8 file) as [[m f]| | | |] eqn:E; try (unfold fread in E; destruct (_ <? _)%N; discriminate); [|reflexivity]. cbn [bind].
  destruct (beqb_spec m serial_magic) as [->|]; [|reflexivity]. cbn [negb].
  unfold load_uint at 1. destruct (fread 4 f) as [[v f']| | | |] eqn:E2; try (unfold fread in E2; destruct (_ <? _)%N; discriminate); [|reflexivity]. cbn [bind].
  destruct (N.eqb_spec (unle v) serial_version) as [Ev|]; [|reflexivity]. exfalso.
  destruct (fread_split _ _ _ _ E) as [Em _]. destruct (fread_split _ _ _ _ E2) as [-> Lv].
  apply (H f'). rewrite Em. f_equal. f_equal.
  destruct v as [|a [|b [|c' [|d [|]]]]]; try (cbn [length] in Lv; lia). cbn [M_Deps.unle] in Ev. unfold serial_version in Ev.
  pose proof (N_ascii_bounded a). pose proof (N_ascii_bounded b). pose proof (N_ascii_bounded c'). pose proof (N_ascii_bounded d).
  assert (Q : N_of_ascii a = 7%N /\ N_of_ascii b = 0%N /\ N_of_ascii c' = 0%N /\ N_of_ascii d = 0%N) by lia. destruct Q as (Q1 & Q2 & Q3 & Q4).
  rewrite <- (ascii_N_embedding a), <- (ascii_N_embedding b), <- (ascii_N_embedding c'), <- (ascii_N_embedding d), Q1, Q2, Q3, Q4. reflexivity.
Qed.
Print Assumptions C63_other_files_are_rejected.

(** The parts of a file are all of bounded length, so reading them ends for every file. *)
Theorem C63_reading_ends : forall file, load_wk file <> Endless.
Proof. exact ends_wk. Qed.
Print Assumptions C63_reading_ends.

(** Not every corrupt file is rejected safely:
    - the length of a big string is not checked, so that memory after the strings of the file is
      read and becomes part of an object;
    - an offset at the end of a bucket passes the check and fails an assertion;
    - an array that contains itself is copied for ever;
    - bytes after the end of the dump are ignored. *)
Definition file_of (root : N) (big : bytes) (obj : bytes) : bytes :=
  B "muondump" ++ le 4 7 ++ le 4 root
  ++ le 4 1 ++ le 4 0                                        (* one empty bucket of characters *)
  ++ le 8 (N.of_nat (length big)) ++ big
  ++ le 4 1 ++ obj                                           (* one object *)
  ++ le 4 1 ++ le 4 1 ++ le 4 0 ++ le 4 0 ++ le 4 0.         (* one element of dictionaries *)
Definition long_string : bytes := file_of 1 (B "ab") (le 1 8 ++ le 8 0 ++ le 8 1000 ++ le 4 1 ++ le 4 0).
Definition end_of_bucket : bytes := file_of 1 [] (le 1 8 ++ le 8 0 ++ le 8 0 ++ le 4 0 ++ le 4 0).
Definition own_child : bytes := file_of 1 [] (le 1 9 ++ le 4 1 ++ le 4 0 ++ le 4 1 ++ le 4 1 ++ le 1 0 ++ le 3 0).
Definition no_garbage : bytes := file_of 1 [] (le 1 7 ++ le 8 42).
Theorem C63_refuted :
  (forall n w, load n w long_string = Outside) /\ (forall n w, load n w end_of_bucket = Abort) /\
  (forall n w, load n w own_child = Endless) /\
  (forall n w, load (S n) w (no_garbage ++ B "garbage") = Ok (add (Number 42) w)).
Proof.
  split; [|split; [|split]]; intros n w.
  - assert (E : load_wk long_string = Outside) by (vm_compute; reflexivity). unfold load. now rewrite E.
  - assert (E : load_wk end_of_bucket = Abort) by (vm_compute; reflexivity). unfold load. now rewrite E.
  - set (src := Wk [[]] [Simple 0 0; Arr 1 0 1 1 false] [[(0, 0, 0)%N]] [] [] None).
    assert (E : load_wk own_child = Ok ((src, 1%N), [])) by (vm_compute; reflexivity). unfold load. rewrite E. cbn [bind]. clear E.
    revert w. induction n as [|n IH]; intros w; [reflexivity|]. cbn [clone]. change (get src 1) with (Some (Arr 1 0 1 1 false)). cbn [add N.eqb Pos.eqb].
    destruct n as [|n]; [reflexivity|]. cbn [clone_array]. rewrite IH. reflexivity.
  - assert (E : load_wk (no_garbage ++ B "garbage") = Ok ((Wk [[]] [Simple 0 0; Number 42] [[(0, 0, 0)%N]] [] [] None, 1%N), B "garbage")) by (vm_compute; reflexivity).
    unfold load. rewrite E. reflexivity.
Qed.
Print Assumptions C63_refuted.
