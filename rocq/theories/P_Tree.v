(** C14: samurai's AVL trees (src/external/samurai/tree.c). *)
From Verif Require Import Base M_Tree S_Tree L_Tree.

(** Any sequence of insertions into an empty tree succeeds (no NULL child is rotated); the
    result is ordered, height balanced, and finds exactly the last value given per key. *)
Theorem C14_search_tree : forall (V : Type) (kvs : list (bytes * V)),
  exists t, insert_all Leaf kvs = Some t /\ ordered t /\ balanced t /\
    forall key, treefind t key = last_value kvs key.
Proof.
  intros V kvs. destruct (insert_all_spec kvs Leaf (fun _ => None)) as (t & E & A & O & F).
  - split; exact I.
  - constructor.
  - reflexivity.
  - exists t. split; [exact E|]. split; [exact O|]. split; [apply A|exact F].
Qed.
Print Assumptions C14_search_tree.
Example C14_ex :
  match insert_all Leaf (map (fun k => (B k, k)) ["a"; "b"; "c"; "d"; "e"; "f"; "g"; "b"])%string with
  | Some t => (depth t, size t, treefind t (B "f"), treefind t (B "h")) = (3, 7, Some "f"%string, None)
  | None => False
  end.
Proof. vm_compute. reflexivity. Qed.

(** The path buffer of MAXH entries suffices for the insertion of any key into any tree so
    obtained that has fewer than 2^64 nodes. *)
Theorem C14_path_buffer : forall (V : Type) (kvs : list (bytes * V)) t key v,
  insert_all Leaf kvs = Some t -> (N.of_nat (size t) < 2 ^ 64)%N ->
  exists t' old used, treeinsert t key v = Some (t', old, used) /\ used <= MAXH /\
    old = last_value kvs key.
Proof.
  intros V kvs t key v E S. destruct (insert_all_spec kvs Leaf (fun _ => None)) as (t2 & E2 & A & O & F);
    [split; exact I|constructor|reflexivity|].
  rewrite E in E2. inversion E2; subst t2.
  destruct (treeinsert_spec t key v A O) as (t' & n & Ei & Hn & _).
  exists t', (treefind t key), n. split; [exact Ei|]. split; [|apply F].
  pose proof (depth_bound t (proj2 A) S). unfold MAXH. lia.
Qed.
Print Assumptions C14_path_buffer.
Example C14_path_ex : exists t, insert_all Leaf [(B "x", 1); (B "y", 2); (B "z", 3)] = Some t
  /\ treeinsert t (B "y") 9 <> None /\ (N.of_nat (size t) < 2 ^ 64)%N.
Proof. eexists. split; [vm_compute; reflexivity|]. split; [discriminate|reflexivity]. Qed.
