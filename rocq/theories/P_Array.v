(** Arrays of the language behave as sequences (src/lang/object.c 493-1041). *)
From Verif Require Import Base M_Array S_Array L_Array.

(** C36.  Every history of array calls gives the answers a program with plain lists would get,
    whatever arrays are alive at the same time, as long as the first element of a two-element
    array is never deleted.  Missing: that one call (see the refutation). *)
Theorem C36_histories_partial : forall (equal : nat -> nat -> bool) (str_of : nat -> option bytes),
  (forall v, equal v v = true) ->
  forall calls lists answers,
  spec_run equal str_of [] calls = Some (lists, answers) ->
  never_shrinks_pair equal str_of [] calls ->
  exists s, run equal str_of (mkState [] []) calls = Some (s, answers).
Proof.
  intros equal str_of refl calls lists answers Hs Hn.
  destruct (run_refines equal str_of refl calls _ _ _ _ _ inv_start Hs Hn) as (s & css & E & _). eauto.
Qed.
Print Assumptions C36_histories_partial.

Definition demo : list call :=
  [New; Push 0 7; Push 0 8; Push 0 7; Dup 0; Extend 0 0; Prepend 0 5; Elements 0; Del 0 0; Del 0 2;
   SetAt 0 1 9; Pop 0; Push 0 4; Elements 0; Slice 0 1 (-2); Elements 2; Dedup 0; Elements 3;
   ExtendNodup 1 2; Push 1 6; Elements 1; Length 1; Index 1 (4); Contains 0 9; Join 3 (B "-")].
Definition demo_str (v : nat) : option bytes := Some (repeat "x"%char (v - 6)).
Example C36_witness : exists lists answers,
  spec_run Nat.eqb demo_str [] demo = Some (lists, answers) /\
  never_shrinks_pair Nat.eqb demo_str [] demo /\
  answers = [ANone; ANone; ANone; ANone; ANone; ANone; ANone; AList [5; 7; 8; 7; 7; 8; 7]; ANone; ANone;
    ANone; AVal 7; ANone; AList [7; 9; 7; 8; 4]; ANone; AList [9; 7; 8]; ANone; AList [7; 9; 8; 4];
    ANone; ANone; AList [7; 8; 7; 9; 7; 8; 6]; ANum 7; AVal 7; ABool true; AStr (Some (B "x-xxx-xx-"))].
Proof.
  eexists _, _. split; [vm_compute; reflexivity|]. split; [|reflexivity].
  unfold demo.
  repeat (split; [vm_compute; reflexivity|]; intros ? ? E; vm_compute in E; injection E as <- <-). exact I.
Qed.

(** An index outside the array stops the program instead of touching another element. *)
Theorem C36_out_of_range : forall (equal : nat -> nat -> bool) (str_of : nat -> option bytes),
  (forall v, equal v v = true) ->
  forall calls lists answers s,
  spec_run equal str_of [] calls = Some (lists, answers) ->
  never_shrinks_pair equal str_of [] calls ->
  run equal str_of (mkState [] []) calls = Some (s, answers) ->
  forall a l i, nth_error lists a = Some (Some l) -> ~ (0 <= i < Z.of_nat (length l))%Z ->
  step equal str_of s (Index a i) = None /\ step equal str_of s (Del a i) = None /\
  forall v, step equal str_of s (SetAt a i v) = None.
Proof.
  intros equal str_of refl calls lists answers s Hs Hn Hr a l i Hl Hi.
  destruct (run_refines equal str_of refl calls _ _ _ _ _ inv_start Hs Hn) as (s' & css & E & HI).
  rewrite Hr in E. injection E as ->. eapply out_of_range; eauto. unfold look. now rewrite Hl.
Qed.
Print Assumptions C36_out_of_range.

(** Deleting the first of two elements leaves the tail pointer at a cell that is no longer in
    the array: what is pushed next is counted but never seen. *)
Theorem C36_shrunk_pair_refuted : exists calls lists answers,
  spec_run Nat.eqb (fun _ => None) [] calls = Some (lists, answers ++ [AList [2; 3]; ANum 2]) /\
  exists s, run Nat.eqb (fun _ => None) (mkState [] []) calls = Some (s, answers ++ [AList [2]; ANum 2]).
Proof.
  exists [New; Push 0 1; Push 0 2; Del 0 0; Push 0 3; Elements 0; Length 0].
  exists [Some [2; 3]], [ANone; ANone; ANone; ANone; ANone]. split; [vm_compute; reflexivity|].
  eexists. vm_compute. reflexivity.
Qed.
Print Assumptions C36_shrunk_pair_refuted.

(** The tail of an array keeps the length of the whole array. *)
Theorem C36_tail_refuted : exists s answers h r,
  run Nat.eqb (fun _ => None) (mkState [] []) [New; Push 0 1; Push 0 2; Push 0 3] = Some (s, answers) /\
  array_tail (hp s) 0 = Some (h, r) /\ elements h r = Some [2; 3] /\ length_of h r = Some 3.
Proof. eexists _, _, _, _. split; [vm_compute; reflexivity|]. vm_compute. auto. Qed.
Print Assumptions C36_tail_refuted.
