(** C37: the language's dictionaries (src/lang/object.c 1043-1438). *)
From Verif Require Import Base M_Hash L_Hash M_Dict S_Dict L_Dict.

(** C37, for every type of keys, every hash function and every pair of comparisons that decide
    equality: a history of new, set, index, delete, dup, merge, in-place merge, iteration and
    length over any number of dictionaries gives exactly the answers of insertion-ordered
    finite maps and fails no assertion, on both sides of the switch to the hash table.
    Missing: deleting a key from a dictionary that has been written to while it had 15 or more
    entries (refuted below), and merging a dictionary into itself. *)
Theorem C37_histories_partial :
  forall (K : Type) (str_eql keycmp eqb : K -> K -> bool) (hash_func : K -> N) (str_of : nat -> K),
  (forall a b, str_eql a b = true <-> a = b) ->
  (forall a b, keycmp a b = true <-> a = b) ->
  (forall a b, eqb a b = true <-> a = b) ->
  forall (cs : list call) (s : store) (rs : list (answer K)),
  spec_run eqb str_of [] cs = Some (s, rs) ->
  never_deletes_from_big eqb str_of [] cs ->
  exists w, run str_eql keycmp hash_func str_of start_world cs = Some (w, rs).
Proof. intros. eapply run_ok; eauto. apply start_inv. Qed.
Print Assumptions C37_histories_partial.

(** a history that crosses the switch (18 keys), overwrites on both sides of it, deletes from
    small dictionaries and merges *)
Definition puts (d n : nat) : list call := map (fun k => Put d (S k) (100 + k)) (seq 0 n).
Definition demo : list call :=
  [New] ++ puts 0 6 ++ [Delete 0 1; Delete 0 6; Delete 0 3; Delete 0 9; Put 0 4 7; Put 0 1 8; Length 0; Entries 0]
  ++ [New] ++ puts 1 18 ++ [Put 1 2 5; Get 1 2; Get 1 40; Delete 1 40; Length 1; Dup 1; Merge 0 1; Entries 3;
      MergeInto 0 2; Length 0; Entries 0].
Example C37_ex :
  match spec_run Nat.eqb (fun k => k) [] demo with
  | Some (s, rs) => map (fun d => length (fst d)) s = [18; 18; 18; 18] /\
      match run Nat.eqb Nat.eqb (fun k => N.of_nat k * 977)%N (fun k => k) start_world demo with
      | Some (w, rs') => rs' = rs /\ map (@big) (dicts w) = [true; true; true; true]
      | None => False
      end
  | None => False
  end.
Proof. vm_compute. auto. Qed.
Fixpoint check_never (s : @store nat) (cs : list call) : bool :=
  match cs with
  | [] => true
  | c :: cs => negb (deletes_from_big Nat.eqb (fun k => k) s c) &&
      match spec_step Nat.eqb (fun k => k) s c with Some (s, _) => check_never s cs | None => true end
  end.
Example C37_ex_hyp : never_deletes_from_big Nat.eqb (fun k => k) [] demo.
Proof.
  assert (X : forall cs s, check_never s cs = true -> never_deletes_from_big Nat.eqb (fun k => k) s cs).
  { induction cs as [|c cs IH]; intros s H; [exact I|]. cbn [check_never] in H. apply andb_prop in H as [H1 H2].
    split; [now apply negb_true_iff|]. intros s' r E. rewrite E in H2. auto. }
  apply X. vm_compute. reflexivity.
Qed.

(** ... for the comparison and hash function of the string tables, when no key string has a
    NUL byte (with one, strncmp confuses keys: C11_nul_keys_refuted) *)
Definition strkey := { s : bytes | no_nul s = true }.
Theorem C37_string_keys_partial : forall (str_of : nat -> strkey) (cs : list call) (s : store) (rs : list (answer strkey)),
  let on {A} (f : bytes -> bytes -> A) := fun a b : strkey => f (proj1_sig a) (proj1_sig b) in
  spec_run (on beqb) str_of [] cs = Some (s, rs) ->
  never_deletes_from_big (on beqb) str_of [] cs ->
  exists w, run (on beqb) (on hash_keycmp_strcmp) (fun a => str_hash (proj1_sig a)) str_of start_world cs = Some (w, rs).
Proof.
  intros str_of cs s rs on. apply C37_histories_partial; intros [a Ha] [b Hb]; unfold on; cbn [proj1_sig].
  1, 3: rewrite beqb_eq. 3: rewrite keycmp_strcmp_nonul by assumption.
  all: split; [intros ->; f_equal; apply Eqdep_dec.UIP_dec, Bool.bool_dec|now intros [= ->]].
Qed.
Print Assumptions C37_string_keys_partial.
Example C37_string_ex : hash_keycmp_strcmp (B "cpp_std") (B "c_std") = false /\ no_nul (B "cpp_std") = true.
Proof. vm_compute. auto. Qed.

(** Deleting from a dictionary that has become a table: the key is gone for indexing but the
    length still counts it, iterating over the dictionary dereferences a null pointer, and
    after setting the key again it is visited twice. *)
Definition sixteen : list call := New :: puts 0 16.
Theorem C37_big_delete_refuted :
  let go := run Nat.eqb Nat.eqb (fun k => N.of_nat k * 977)%N (fun k => k) start_world in
  let spec := spec_run Nat.eqb (fun k => k) [] in
  let end_of {A} (r : option (A * list (answer nat))) := option_map (fun p => skipn 17 (snd p)) r in
  end_of (go (sixteen ++ [Delete 0 3; Get 0 3; Length 0])) = Some [ANone; AVal None; ANum 16] /\
  end_of (spec (sixteen ++ [Delete 0 3; Get 0 3; Length 0])) = Some [ANone; AVal None; ANum 15] /\
  go (sixteen ++ [Delete 0 3; Entries 0]) = None /\
  (exists l, end_of (go (sixteen ++ [Delete 0 3; Put 0 3 9; Entries 0])) = Some [ANone; ANone; AEntries l] /\
     length l = 17 /\ count_occ Nat.eq_dec (map fst l) 3 = 2).
Proof.
  cbv zeta. split; [vm_compute; reflexivity|]. split; [vm_compute; reflexivity|]. split; [vm_compute; reflexivity|].
  eexists. split; [vm_compute; reflexivity|]. vm_compute. auto.
Qed.
Print Assumptions C37_big_delete_refuted.
