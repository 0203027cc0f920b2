(** C13: samurai's node table (src/external/samurai/htab.c). *)
From Verif Require Import Base M_Hash M_Htab S_Htab L_Hash L_Htab.

(** Every history of puts and stores on a fresh table of a power-of-two capacity >= 4 (the
    graph uses 1024) runs to completion, for every hash function; afterwards every lookup
    completes and returns what was last stored for the key. *)
Theorem C13_finite_map : forall (V : Type) (hash_of : bytes -> N) k (ops : list (htop V)), 4 <= 2 ^ k ->
  exists h, htrun hash_of (mkhtab (2 ^ k)) ops = Some h /\
    forall key, htabget hash_of h key = Some (htspec ops key).
Proof.
  intros V hf k ops Hk. destruct (mkhtab_inv (V:=V) hf k Hk) as [I R].
  destruct (htrun_spec hf ops _ _ I R) as (h & E & I' & R').
  exists h. split; [exact E|]. intros key. now apply hrep_get.
Qed.
Print Assumptions C13_finite_map.
Example C13_ex :
  match htrun (fun _ => 7%N) (mkhtab (2 ^ 2)) [TStore (B "a") 1; TPut (B "b"); TStore (B "c") 3; TStore (B "d") 4; TStore (B "a") 5] with
  | Some h => (hcap h, map (htabget (fun _ => 7%N) h) [B "a"; B "b"; B "d"; B "e"]) =
              (8, [Some (Some 5); Some None; Some (Some 4); Some None])
  | None => False
  end.
Proof. vm_compute. reflexivity. Qed.

(** The slot handed out for a key after any history belongs to that key alone: it reads as
    the key's current value, and writing through it changes no other key's lookup. *)
Theorem C13_slots : forall (V : Type) (hash_of : bytes -> N) k (ops : list (htop V)) key, 4 <= 2 ^ k ->
  exists h h' i, htrun hash_of (mkhtab (2 ^ k)) ops = Some h /\
    htabput hash_of h key = Some (h', i) /\ i < length (hslots h') /\
    hread h' i = htspec ops key /\
    forall v, htabget hash_of (hwrite h' i (Some v)) key = Some (Some v) /\
      forall key', key' <> key -> htabget hash_of (hwrite h' i (Some v)) key' = Some (htspec ops key').
Proof.
  intros V hf k ops key Hk. destruct (mkhtab_inv (V:=V) hf k Hk) as [I R].
  destruct (htrun_spec hf ops _ _ I R) as (h & E & I' & R').
  destruct (htstep_spec hf h _ (TPut key) I' R') as (h1 & E1 & I1 & R1).
  destruct (htabput_spec hf h key I') as (h' & i & w & Ep & I2 & A & _).
  simpl in E1. rewrite Ep in E1. simpl in E1. inversion E1; subst h1.
  exists h, h', i. split; [exact E|]. split; [exact Ep|]. split; [apply A|]. split.
  - pose proof (hrep_get hf h' _ key I2 R1) as G. simpl in G.
    unfold htabget in G. destruct (keyindex_spec hf h' key I2) as (d & Hd & Ek & _ & [[He Hn]|[w0 Hs]]).
    + exfalso. eapply Hn; eauto.
    + rewrite Ek in G. assert (i = pos (hcap h') (hstart hf h' key) d) by (eapply (hi_uniq _ _ I2); eauto).
      subst i. unfold hread. injection G. auto.
  - intros v.
    assert (S2 : htstep hf h (TStore key v) = Some (hwrite h' i (Some v))) by (simpl; now rewrite Ep).
    destruct (htstep_spec hf h _ (TStore key v) I' R') as (h2 & E2 & I3 & R3).
    rewrite S2 in E2. inversion E2; subst h2. split.
    + rewrite (hrep_get hf _ _ key I3 R3). simpl. now rewrite beqb_refl.
    + intros key' Hne. rewrite (hrep_get hf _ _ key' I3 R3). simpl.
      destruct (beqb_spec key key'); [congruence|reflexivity].
Qed.
Print Assumptions C13_slots.
Example C13_murmur_ex : murmurhash64a (B "muon build.ninja") = murmurhash64a (B "muon build.ninja")
  /\ murmurhash64a [] <> murmurhash64a (B "a").
Proof. split; [reflexivity|]. vm_compute. discriminate. Qed.
