(** C17: substring search. *)
From Verif Require Import Base M_Memmem S_Memmem L_Memmem.

(** For every haystack and needle the search ends, reads neither of them outside of its bounds, and
    answers with the first offset of an occurrence, or with nothing if the needle does not occur. *)
Theorem C17_memmem : forall haystack needle fuel, 2 * length needle + length haystack < fuel ->
  exists r, memmem fuel haystack needle = Ok r /\ first_occurrence needle haystack r.
Proof.
  intros h n fuel F. destruct (memmem_ok n h fuel F) as (r & E & A). exists r. split; [exact E|].
  apply answer_first, A.
Qed.
Print Assumptions C17_memmem.
(** periodic and aperiodic needles, and one that does not occur *)
Example C17_met :
  memmem 100 (B "abaabaababaabaabaabab") (B "abaabaabaab") = Ok (Some 8) /\
  memmem 100 (B "xxbananabananas") (B "bananas") = Ok (Some 8) /\
  memmem 100 (B "abcabcabdabcabcabc") (B "abcabcabcabc") = Ok None /\
  memmem 100 (B "zzab") (B "ab") = Ok (Some 2).
Proof. vm_compute. repeat split. Qed.

(** The answer does not depend on how the search is done: two answers that meet the specification agree. *)
Theorem C17_one_answer : forall haystack needle r r',
  first_occurrence needle haystack r -> first_occurrence needle haystack r' -> r = r'.
Proof.
  intros h n [o|] [o'|] A B; cbn in *; try reflexivity.
  - f_equal. destruct A as [A1 A2], B as [B1 B2]. specialize (A2 _ B1). specialize (B2 _ A1). lia.
  - destruct A as [A _]. destruct (B _ A).
  - destruct B as [B _]. destruct (A _ B).
Qed.
Print Assumptions C17_one_answer.
