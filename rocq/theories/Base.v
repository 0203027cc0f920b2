(** Shared vocabulary: bytes, byte strings, and small list lemmas.
    A C [char] buffer is modelled as a [list ascii]. *)
From Coq Require Export Ascii String.
From Coq Require Export ZArith NArith Arith Lia Bool List.
Export ListNotations.
#[global] Open Scope list_scope.
#[global] Open Scope nat_scope.

Notation bytes := (list ascii).

(** Literals: [B "abc"] is the byte string abc. *)
Definition B (x : string) : bytes := list_ascii_of_string x.

Definition ceqb (a b : ascii) : bool := Ascii.eqb a b.

Fixpoint beqb (a b : bytes) : bool :=
  match a, b with
  | [], [] => true
  | x :: a', y :: b' => ceqb x y && beqb a' b'
  | _, _ => false
  end.

(** [ch n] is the byte with value [n] (n < 256). *)
Definition ch (n : nat) : ascii := ascii_of_nat n.
Definition NUL : ascii := ch 0.
Definition NL : ascii := ch 10.
Definition TAB : ascii := ch 9.
Definition CR : ascii := ch 13.
Definition QUOTE : ascii := ch 39.
Definition DQUOTE : ascii := ch 34.
Definition BSLASH : ascii := ch 92.

(** Numeric value of a byte seen as C [unsigned char]. *)
Definition cval (c : ascii) : nat := nat_of_ascii c.

Definition ischar (c : ascii) (x : ascii) : bool := ceqb c x.

Definition is_digit (c : ascii) : bool := (48 <=? cval c) && (cval c <=? 57).
Definition is_lower (c : ascii) : bool := (97 <=? cval c) && (cval c <=? 122).
Definition is_upper (c : ascii) : bool := (65 <=? cval c) && (cval c <=? 90).
Definition is_alpha (c : ascii) : bool := is_lower c || is_upper c.
Definition is_alnum (c : ascii) : bool := is_alpha c || is_digit c.

Fixpoint mem_char (c : ascii) (l : bytes) : bool :=
  match l with
  | [] => false
  | x :: l' => ceqb c x || mem_char c l'
  end.

(** Everything before the first [c], and everything from it on. *)
Fixpoint break_at (c : ascii) (l : bytes) : bytes * bytes :=
  match l with
  | [] => ([], [])
  | x :: l' => if ceqb x c then ([], x :: l')
               else let '(a, b) := break_at c l' in (x :: a, b)
  end.

(** Standard splitting on one separator byte: n separators give n+1 pieces. *)
Fixpoint split_on (c : ascii) (l : bytes) : list bytes :=
  match l with
  | [] => [[]]
  | x :: l' =>
      if ceqb x c then [] :: split_on c l'
      else match split_on c l' with
           | [] => [[x]]
           | h :: t => (x :: h) :: t
           end
  end.

(** Join with a separator string. *)
Fixpoint joinb (s : bytes) (l : list bytes) : bytes :=
  match l with
  | [] => []
  | [x] => x
  | x :: l' => x ++ s ++ joinb s l'
  end.

Fixpoint starts_with (p l : bytes) : bool :=
  match p, l with
  | [], _ => true
  | x :: p', y :: l' => ceqb x y && starts_with p' l'
  | _ :: _, [] => false
  end.

#[global] Arguments ceqb : simpl never.
#[global] Arguments cval : simpl never.
#[global] Arguments ch : simpl never.
#[global] Arguments is_digit : simpl never.
#[global] Arguments is_lower : simpl never.
#[global] Arguments is_upper : simpl never.
#[global] Arguments is_alpha : simpl never.
#[global] Arguments is_alnum : simpl never.

(** * Lemmas *)

Lemma ceqb_spec a b : reflect (a = b) (ceqb a b).
Proof. apply Ascii.eqb_spec. Qed.

Lemma ceqb_refl a : ceqb a a = true.
Proof. apply Ascii.eqb_refl. Qed.

Lemma ceqb_eq a b : ceqb a b = true <-> a = b.
Proof. apply Ascii.eqb_eq. Qed.

Lemma ceqb_neq a b : ceqb a b = false <-> a <> b.
Proof. apply Ascii.eqb_neq. Qed.

Lemma ceqb_sym a b : ceqb a b = ceqb b a.
Proof. apply Ascii.eqb_sym. Qed.

Lemma beqb_eq a b : beqb a b = true <-> a = b.
Proof.
  revert b; induction a as [|x a IH]; intros [|y b]; simpl; split; intro H;
    try reflexivity; try discriminate.
  - apply andb_true_iff in H as [H1 H2].
    apply ceqb_eq in H1. apply IH in H2. congruence.
  - injection H as -> ->. rewrite ceqb_refl. simpl. now apply IH.
Qed.

Lemma beqb_spec a b : reflect (a = b) (beqb a b).
Proof.
  destruct (beqb a b) eqn:E; constructor.
  - now apply beqb_eq.
  - intro H. apply beqb_eq in H. congruence.
Qed.

Lemma beqb_refl a : beqb a a = true.
Proof. now apply beqb_eq. Qed.

Lemma beqb_neq a b : beqb a b = false <-> a <> b.
Proof. destruct (beqb_spec a b); split; congruence. Qed.

Lemma bytes_eq_dec (a b : bytes) : {a = b} + {a <> b}.
Proof. apply list_eq_dec, ascii_dec. Qed.

Lemma mem_char_In c l : mem_char c l = true <-> In c l.
Proof.
  induction l as [|x l IH]; simpl.
  - split; [discriminate|tauto].
  - rewrite orb_true_iff, IH, ceqb_eq. split; intros [H|H]; auto.
Qed.

Lemma mem_char_not_In c l : mem_char c l = false <-> ~ In c l.
Proof.
  rewrite <- mem_char_In. destruct (mem_char c l); split; congruence.
Qed.

Lemma break_at_app c l a b :
  break_at c l = (a, b) -> l = a ++ b.
Proof.
  revert a b; induction l as [|x l IH]; simpl; intros a b H.
  - now inversion H.
  - destruct (ceqb x c) eqn:E.
    + now inversion H.
    + destruct (break_at c l) as [a' b'].
      inversion H; subst. simpl. f_equal. now apply IH.
Qed.

Lemma break_at_notin c l a b :
  break_at c l = (a, b) -> ~ In c a.
Proof.
  revert a b; induction l as [|x l IH]; simpl; intros a b H.
  - inversion H; auto.
  - destruct (ceqb_spec x c) as [E|E].
    + inversion H; auto.
    + destruct (break_at c l) as [a' b'].
      inversion H; subst. simpl. intros [H1|H1]; [congruence|].
      eapply IH; eauto.
Qed.

Lemma break_at_rest c l a b :
  break_at c l = (a, b) -> b = [] \/ exists b', b = c :: b'.
Proof.
  revert a b; induction l as [|x l IH]; simpl; intros a b H.
  - inversion H; auto.
  - destruct (ceqb_spec x c) as [E|E].
    + inversion H; subst. right. eauto.
    + destruct (break_at c l) as [a' b'].
      inversion H; subst. eapply IH; eauto.
Qed.

Lemma break_at_compute c a b :
  ~ In c a -> (b = [] \/ exists b', b = c :: b') -> break_at c (a ++ b) = (a, b).
Proof.
  intros Ha Hb. induction a as [|x a IH]; simpl.
  - destruct Hb as [->|[b' ->]]; simpl; auto. now rewrite ceqb_refl.
  - simpl in Ha. destruct (ceqb_spec x c) as [->|E]; [tauto|].
    rewrite IH by tauto. reflexivity.
Qed.

Lemma split_on_nonempty c l : split_on c l <> [].
Proof.
  induction l as [|x l IH]; simpl; [discriminate|].
  destruct (ceqb x c); [discriminate|].
  destruct (split_on c l); [congruence|discriminate].
Qed.

Lemma split_on_nosep c a : ~ In c a -> split_on c a = [a].
Proof.
  induction a as [|x a IH]; simpl; intros H; [reflexivity|].
  destruct (ceqb_spec x c) as [->|E]; [tauto|].
  rewrite IH by tauto. reflexivity.
Qed.

Lemma split_on_cons c a l : ~ In c a -> split_on c (a ++ c :: l) = a :: split_on c l.
Proof.
  induction a as [|x a IH]; simpl; intros H.
  - now rewrite ceqb_refl.
  - destruct (ceqb_spec x c) as [->|E]; [tauto|].
    rewrite IH by tauto. reflexivity.
Qed.

Lemma split_on_notin c l : Forall (fun x => ~ In c x) (split_on c l).
Proof.
  induction l as [|x l IH]; simpl.
  - repeat constructor. intros [].
  - destruct (ceqb_spec x c) as [->|E].
    + constructor; auto.
    + destruct (split_on c l) as [|h t].
      * repeat constructor. simpl; intuition.
      * inversion IH; subst. constructor; auto. simpl; intuition.
Qed.

Lemma split_on_join c l : joinb [c] (split_on c l) = l.
Proof.
  induction l as [|x l IH]; simpl; [reflexivity|].
  destruct (ceqb_spec x c) as [->|E].
  - destruct (split_on c l) as [|h t] eqn:Es.
    + exfalso. eapply split_on_nonempty; eauto.
    + simpl in *. f_equal. exact IH.
  - destruct (split_on c l) as [|h t] eqn:Es.
    + exfalso. eapply split_on_nonempty; eauto.
    + destruct t; simpl in *; f_equal; exact IH.
Qed.

Lemma joinb_cons s x y l : joinb s (x :: y :: l) = x ++ s ++ joinb s (y :: l).
Proof. reflexivity. Qed.

Lemma split_on_joinb c ls :
  ls <> [] -> Forall (fun x => ~ In c x) ls -> split_on c (joinb [c] ls) = ls.
Proof.
  induction ls as [|x ls IH]; intros Hne HF; [congruence|].
  inversion HF; subst. destruct ls as [|y ls].
  - simpl. now apply split_on_nosep.
  - rewrite joinb_cons. simpl app at 2. rewrite split_on_cons by assumption.
    f_equal. apply IH; [discriminate|assumption].
Qed.

Lemma starts_with_spec p l : starts_with p l = true <-> exists r, l = p ++ r.
Proof.
  revert l; induction p as [|x p IH]; intros l; simpl.
  - split; eauto.
  - destruct l as [|y l].
    + split; [discriminate|]. intros [r H]; discriminate.
    + rewrite andb_true_iff, ceqb_eq, IH. split.
      * intros [-> [r ->]]. eauto.
      * intros [r H]. inversion H; subst. eauto.
Qed.

Lemma split_on_app_sep c x y : split_on c (x ++ c :: y) = split_on c x ++ split_on c y.
Proof.
  induction x as [|a x IH]; simpl.
  - now rewrite ceqb_refl.
  - destruct (ceqb a c); [now rewrite IH|].
    rewrite IH. destruct (split_on c x) eqn:E; [|reflexivity].
    exfalso. eapply split_on_nonempty; eauto.
Qed.

Lemma joinb_app s a b : a <> [] -> b <> [] -> joinb s (a ++ b) = joinb s a ++ s ++ joinb s b.
Proof.
  intros Ha Hb. induction a as [|x a IH]; [congruence|].
  destruct a as [|y a].
  - simpl. destruct b; [congruence|reflexivity].
  - change ((x :: y :: a) ++ b) with (x :: y :: (a ++ b)).
    rewrite !joinb_cons. change (y :: a ++ b) with ((y :: a) ++ b).
    rewrite IH by discriminate. now rewrite <- !app_assoc.
Qed.

(** Longest prefix satisfying [p], and the rest. *)
Fixpoint span (p : ascii -> bool) (l : bytes) : bytes * bytes :=
  match l with
  | [] => ([], [])
  | x :: l' => if p x then let '(a, b) := span p l' in (x :: a, b) else ([], l)
  end.

Fixpoint dropw (p : ascii -> bool) (l : bytes) : bytes :=
  match l with
  | [] => []
  | x :: l' => if p x then dropw p l' else l
  end.

Lemma span_spec p l : forall a b, span p l = (a, b) ->
  l = a ++ b /\ Forall (fun c => p c = true) a /\ (forall x b', b = x :: b' -> p x = false).
Proof.
  induction l as [|c l IH]; intros a b H; simpl in H.
  - inversion H; subst. repeat split; auto. discriminate.
  - destruct (p c) eqn:E.
    + destruct (span p l) as [a1 b1]. inversion H; subst.
      destruct (IH _ _ eq_refl) as (-> & H1 & H2). repeat split; auto.
    + inversion H; subst. repeat split; auto. intros x b' [= <- <-]. assumption.
Qed.

Lemma dropw_spec p l : exists a, l = a ++ dropw p l /\ Forall (fun c => p c = true) a /\
  (forall x b', dropw p l = x :: b' -> p x = false).
Proof.
  induction l as [|c l IH]; simpl.
  - exists []. repeat split; auto. discriminate.
  - destruct (p c) eqn:E.
    + destruct IH as (a & H1 & H2 & H3). exists (c :: a). simpl. rewrite <- H1. auto.
    + exists []. repeat split; auto. intros x b' [= <- <-]. assumption.
Qed.

Lemma dropw_length p l : length (dropw p l) <= length l.
Proof. induction l as [|c l IH]; simpl; [lia|]. destruct (p c); simpl; lia. Qed.

(** Array update: [upd i x l] is [l] with element [i] replaced (unchanged if out of range). *)
Fixpoint upd {A} (i : nat) (x : A) (l : list A) : list A :=
  match l with
  | [] => []
  | y :: l' => match i with 0 => x :: l' | S i' => y :: upd i' x l' end
  end.

Lemma upd_length {A} i (x : A) l : length (upd i x l) = length l.
Proof. revert i. induction l as [|y l IH]; intros [|i]; simpl; auto. Qed.

Lemma nth_error_upd_same {A} i (x : A) l : i < length l -> nth_error (upd i x l) i = Some x.
Proof. revert i. induction l as [|y l IH]; intros [|i] H; simpl in *; try lia; auto. apply IH. lia. Qed.

Lemma nth_error_upd_other {A} i j (x : A) l : i <> j -> nth_error (upd i x l) j = nth_error l j.
Proof.
  revert i j. induction l as [|y l IH]; intros i j H; [now destruct i|].
  destruct i, j; simpl; auto; try lia.
Qed.
