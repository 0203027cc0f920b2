(** Properties C08-C10: version comparison.  version_cmp (S_Version) is the documented
    segment rule; rpmvercmp and version_compare (M_Version) model the code. *)
From Verif Require Import Base M_Version S_Version L_Version.

(** C08: the result is always -1, 0 or 1 (in particular the assert never fires and the loop
    ends), and it is a total preorder. *)
Theorem C08_range : forall a b, exists r, rpmvercmp a b = Some r /\ (r = -1 \/ r = 0 \/ r = 1)%Z.
Proof. intros a b. rewrite rpmvercmp_spec. eexists. split; [reflexivity|]. destruct (version_cmp a b); auto. Qed.
Print Assumptions C08_range.

Theorem C08_reflexive : forall a, rpmvercmp a a = Some 0%Z.
Proof. intros a. now rewrite rpmvercmp_spec, version_cmp_refl. Qed.
Print Assumptions C08_reflexive.

Theorem C08_antisymmetric : forall a b x, rpmvercmp a b = Some x -> rpmvercmp b a = Some (- x)%Z.
Proof.
  intros a b x. rewrite !rpmvercmp_spec, (version_cmp_anti a b). intros [= <-].
  now destruct (version_cmp a b).
Qed.
Print Assumptions C08_antisymmetric.

Theorem C08_transitive : forall a b c x y z,
  rpmvercmp a b = Some x -> rpmvercmp b c = Some y -> rpmvercmp a c = Some z ->
  (x <= 0)%Z -> (y <= 0)%Z -> (z <= 0)%Z /\ (z = 0%Z -> x = 0%Z /\ y = 0%Z).
Proof.
  intros a b c x y z. rewrite !rpmvercmp_spec. intros [= <-] [= <-] [= <-] H1 H2.
  destruct (version_cmp_trans3 a b c) as [T1 T2].
  - intros E. rewrite E in H1. simpl in H1. lia.
  - intros E. rewrite E in H2. simpl in H2. lia.
  - split.
    + unfold le3 in T1. destruct (version_cmp a c); simpl; try lia. congruence.
    + intros E. destruct T2 as [-> ->]; [|auto]. destruct (version_cmp a c); simpl in E; congruence.
Qed.
Print Assumptions C08_transitive.
Example C08_ex : rpmvercmp (B "1.9") (B "1.10") = Some (-1)%Z /\ rpmvercmp (B "1.10") (B "1.010-rc") = Some (-1)%Z
  /\ rpmvercmp (B "1.9") (B "1.010-rc") = Some (-1)%Z.
Proof. vm_compute. auto. Qed.

(** C09 *)
Theorem C09_segment_rule : forall a b, rpmvercmp a b = Some (sign (version_cmp a b)).
Proof. exact rpmvercmp_spec. Qed.
Print Assumptions C09_segment_rule.
Example C09_ex : segments (B "1.02rc-3") = [Num 1; Num 2; Word (B "rc"); Num 3].
Proof. vm_compute. reflexivity. Qed.

(** C10: one requirement *)
Theorem C10_requirement : forall ver req, exists r,
  version_check ver req = Some r /\ (r = true <-> requirement_holds ver req).
Proof. exact version_check_spec. Qed.
Print Assumptions C10_requirement.
Example C10_ex : version_check (B "1.10") (B ">=1.9") = Some true /\ version_check (B "1.10") (B "<1.9") = Some false.
Proof. vm_compute. auto. Qed.

(** a non-empty list of requirements *)
Theorem C10_requirements_partial : forall ver reqs, reqs <> [] -> exists r,
  version_compare ver reqs = Some r /\ (r = true <-> Forall (requirement_holds ver) reqs).
Proof.
  intros ver reqs Hne. destruct (version_compare_from_spec ver reqs false) as (r & E & H).
  exists r. split; [exact E|]. destruct reqs; [congruence|exact H].
Qed.
Print Assumptions C10_requirements_partial.
Example C10_list_ex : version_compare (B "1.5") [B ">=1"; B "<2"] = Some true.
Proof. vm_compute. reflexivity. Qed.

(** ... but the empty list of requirements, which every version meets, is rejected *)
Theorem C10_empty_list_refuted : exists ver reqs,
  Forall (requirement_holds ver) reqs /\ version_compare ver reqs = Some false.
Proof. exists (B "1.0"), []. split; [constructor|reflexivity]. Qed.
Print Assumptions C10_empty_list_refuted.
