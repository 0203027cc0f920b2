(** C11, C12: muon's hash table (src/datastructures/hash.c). *)
From Verif Require Import Base M_Hash S_Hash L_Hash.

(** C11: for every key type, every hash function and every key comparison that decides
    equality, every history of set/unset/clear run on a table with a valid capacity completes
    (no failed assertion, no endless probing), and afterwards looking a key up gives exactly
    what the history says. *)
Theorem C11_finite_map : forall (K V : Type) (keycmp : K -> K -> bool) (hash_func : K -> N),
  (forall a b, keycmp a b = true <-> a = b) ->
  forall k (ops : list (hop K V)), 8 <= 2 ^ k ->
  exists h, hrun keycmp hash_func (hash_init (2 ^ k)) ops = Some h /\
    forall key, hash_get keycmp hash_func h key = Some (spec_run keycmp ops key).
Proof.
  intros K V keycmp hf Heq k ops Hk. destruct (init_inv (V:=V) hf k Hk) as [I R].
  destruct (run_spec keycmp hf Heq ops _ _ I R) as (h & E & I' & R').
  exists h. split; [exact E|]. intros key. now apply represents_get.
Qed.
Print Assumptions C11_finite_map.
(** a hash function for which every key collides, and enough keys to grow the table *)
Example C11_ex :
  match hrun Nat.eqb (fun _ => 5%N) (hash_init (2 ^ 3))
    [HSet 1 "a"; HSet 2 "b"; HSet 3 "c"; HUnset 2; HSet 4 "d"; HSet 5 "e"; HSet 6 "f"; HSet 1 "z"]%string with
  | Some h => (cap h, map (fun k => hash_get Nat.eqb (fun _ => 5%N) h k) [1; 2; 6]) =
              (16, [Some (Some "z"); Some None; Some (Some "f")])%string
  | None => False
  end.
Proof. vm_compute. reflexivity. Qed.

(** iteration visits exactly the map's entries, each key once *)
Theorem C11_iteration : forall (K V : Type) (keycmp : K -> K -> bool) (hash_func : K -> N),
  (forall a b, keycmp a b = true <-> a = b) ->
  forall k (ops : list (hop K V)), 8 <= 2 ^ k ->
  exists h, hrun keycmp hash_func (hash_init (2 ^ k)) ops = Some h /\
    (forall key v, In (key, v) (hash_entries h) <-> spec_run keycmp ops key = Some v) /\
    NoDup (map fst (hash_entries h)).
Proof.
  intros K V keycmp hf Heq k ops Hk. destruct (init_inv (V:=V) hf k Hk) as [I R].
  destruct (run_spec keycmp hf Heq ops _ _ I R) as (h & E & I' & R').
  exists h. split; [exact E|]. eapply entries_spec; eauto.
Qed.
Print Assumptions C11_iteration.
Example C11_iteration_ex :
  option_map hash_entries (hrun Nat.eqb N.of_nat (hash_init (2 ^ 3)) [HSet 300 1; HSet 7 2; HSet 300 3]) =
  Some [(7, 2); (300, 3)].
Proof. vm_compute. reflexivity. Qed.

(** the string tables (hash_init_str), for keys without NUL bytes *)
Definition strkey := { s : bytes | no_nul s = true }.
Theorem C11_string_keys_partial : forall (V : Type) k (ops : list (hop strkey V)), 8 <= 2 ^ k ->
  let kc := fun a b : strkey => hash_keycmp_strcmp (proj1_sig a) (proj1_sig b) in
  let hf := fun a : strkey => str_hash (proj1_sig a) in
  (forall a b, kc a b = true <-> proj1_sig a = proj1_sig b) /\
  exists h, hrun kc hf (hash_init (2 ^ k)) ops = Some h /\
    forall key, hash_get kc hf h key = Some (spec_run kc ops key).
Proof.
  intros V k ops Hk kc hf.
  assert (H : forall a b, kc a b = true <-> proj1_sig a = proj1_sig b).
  { intros [a Ha] [b Hb]. unfold kc. simpl. now apply keycmp_strcmp_nonul. }
  split; [exact H|]. apply C11_finite_map; [|exact Hk].
  intros a b. rewrite H. destruct a as [a Ha], b as [b Hb]. simpl. split; [|now intros [= ->]].
  intros ->. f_equal. apply Eqdep_dec.UIP_dec. apply Bool.bool_dec.
Qed.
Print Assumptions C11_string_keys_partial.
Example C11_string_ex : hash_keycmp_strcmp (B "abc") (B "abd") = false /\ no_nul (B "abc") = true.
Proof. vm_compute. auto. Qed.

(** ... with NUL bytes in the keys, two different keys can be confused: strncmp stops early *)
Theorem C11_nul_keys_refuted : exists k1 k2 : bytes, k1 <> k2 /\
  match hrun hash_keycmp_strcmp str_hash (hash_init (2 ^ 3)) [HSet k1 1] with
  | Some h => hash_get hash_keycmp_strcmp str_hash h k2 = Some (Some 1)
  | None => False
  end.
Proof.
  exists (B "a" ++ NUL :: B "az"), (B "a" ++ NUL :: B "ha"). split; [discriminate|]. vm_compute. reflexivity.
Qed.
Print Assumptions C11_nul_keys_refuted.

(** C12: after every history a lookup of any key completes, and it does so by reaching a slot
    within [cap] probes of its home position; the table always has an empty slot. *)
Theorem C12_probing_terminates : forall (K V : Type) (keycmp : K -> K -> bool) (hash_func : K -> N),
  (forall a b, keycmp a b = true <-> a = b) ->
  forall k (ops : list (hop K V)), 8 <= 2 ^ k ->
  exists h, hrun keycmp hash_func (hash_init (2 ^ k)) ops = Some h /\
    length (slots h) = cap h /\
    (exists i, i < cap h /\ nth_error (slots h) i = Some SEmpty) /\
    (forall key, exists i, i < cap h /\
       probe_from keycmp (cap h) h (h2_of (hash_func key)) key (home (cap h) (hash_func key)) = Some i).
Proof.
  intros K V keycmp hf Heq k ops Hk. destruct (init_inv (V:=V) hf k Hk) as [I R].
  destruct (run_spec keycmp hf Heq ops _ _ I R) as (h & E & I' & R').
  exists h. split; [exact E|]. split; [apply (inv_len _ _ I')|]. split.
  - destruct (inv_has_empty hf h I') as (i & Hi & Hs). exists i. split; [assumption|].
    unfold slot_at in Hs. rewrite <- Hs. apply nth_error_nth'. now rewrite (inv_len _ _ I').
  - intros key. destruct (probe_spec keycmp hf Heq h key I') as (d & Hd & Ep & _).
    eexists. split; [|exact Ep]. apply pos_lt. pose proof (inv_cap _ _ I'). lia.
Qed.
Print Assumptions C12_probing_terminates.
Example C12_ex : exists h, hrun Nat.eqb (fun _ => 5%N) (hash_init (2 ^ 3)) [HSet 1 1; HSet 2 2; HUnset 1; HUnset 2; HSet 3 3; HSet 4 4; HSet 9 9] = Some h /\ load h = 5.
Proof. eexists. split; [vm_compute; reflexivity|reflexivity]. Qed.

(** the hash of a string key is computed when it has fewer than 65536 bytes ... *)
Theorem C12_string_hash_partial : forall key, (N.of_nat (length key) < 65536)%N ->
  fnv_1a_64_str (S (length key)) key = Some (fold_left (fun h c => fnv_step h (sext8 c)) key fnv_offset).
Proof. intros key Hk. exact (fnv_str_loop_spec key Hk key [] fnv_offset eq_refl). Qed.
Print Assumptions C12_string_hash_partial.
Example C12_string_hash_ex : fnv_1a_64_str 4 (B "foo") = Some 15902901984413996407%N.
Proof. vm_compute. reflexivity. Qed.

(** ... and never finishes for longer keys, because the index is 16 bits wide *)
Theorem C12_string_hash_refuted : forall key, (65536 <= N.of_nat (length key))%N ->
  forall fuel, fnv_1a_64_str fuel key = None.
Proof. intros key Hk fuel. apply fnv_str_loop_diverges; [exact Hk|]. reflexivity. Qed.
Print Assumptions C12_string_hash_refuted.
