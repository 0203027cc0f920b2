(** Lemmas about glob patterns. *)
From Verif Require Import Base M_Glob S_Glob.

Definition literal (p : bytes) : Prop := ~ In STAR p /\ ~ In NUL p.
Lemma literal_tail : forall c p, literal (c :: p) -> literal p.
Proof. intros c p [H1 H2]. split; intros H; [apply H1|apply H2]; right; exact H. Qed.
(** ** The recursion ends *)
Definition depth (p s : bytes) : nat := length p * (length s + 3).
Lemma ends : forall fuel,
  (forall top p s, depth p s + 1 < fuel -> exists r, impl fuel top p s = Some r /\ (s = [] -> r <> None)) /\
  (forall p s m, depth p s < fuel -> exists r, loop fuel p s m = Some r) /\
  (forall p s k, depth p s + length s + 2 < fuel -> exists a b s', scan fuel p s k = Some (a, b, s') /\ length s' <= length s).
Proof.
  induction fuel as [|fuel (IH1 & IH2 & IH3)]; [repeat split; intros; lia|]. split; [|split].
  - intros top p s L. cbn [impl].
    destruct ((match p with [] => true | _ => false end) && negb top); [eexists; split; [reflexivity|discriminate]|].
    destruct s as [|d s]; [eexists; split; [reflexivity|discriminate]|].
    destruct (IH2 p (d :: s) 0) as (r & E); [lia|]. exists r. split; [exact E|discriminate].
  - intros p s m L. cbn [loop]. destruct p as [|c p]; [eexists; reflexivity|]. unfold depth in L. cbn [length] in L.
    destruct (ceqb c STAR).
    + destruct (IH3 p s 0) as (a & b & s' & E & Ls); [unfold depth; lia|]. rewrite E. apply IH2. unfold depth.
      assert (Lp : length (skipn (if a =? 0 then a else a + b) p) <= length p) by (rewrite skipn_length; lia). nia.
    + destruct (ceqb c (hd NUL s)); [|eexists; reflexivity]. apply IH2. unfold depth.
      assert (length (tl s) <= length s) by (destruct s; cbn; lia). nia.
  - intros p s k L. cbn [scan]. destruct (IH1 false p s) as (r & E & R); [lia|]. rewrite E.
    destruct r as [sub|]; [exists sub, k, s; split; [reflexivity|lia]|].
    destruct s as [|d s]; [exfalso; apply R; reflexivity|]. cbn [tl].
    destruct (IH3 p s (S k)) as (a & b & s' & E' & Ls).
    + unfold depth in *. cbn [length] in L. nia.
    + exists a, b, s'. split; [exact E'|]. cbn [length]. lia.
Qed.

(** ** Literal patterns *)
Lemma loop_literal : forall p s m fuel, literal p -> length p < fuel ->
  loop fuel p s m = Some (if starts_with p s then Some (m + length p) else None).
Proof.
  induction p as [|c p IH]; intros s m fuel Lp L; (destruct fuel as [|fuel]; [lia|]); cbn [loop].
  - cbn [starts_with length]. rewrite Nat.add_0_r. reflexivity.
  - assert (Lt := literal_tail c p Lp). destruct Lp as [N1 N2].
    destruct (ceqb_spec c STAR) as [->|_]; [exfalso; apply N1; left; reflexivity|].
    destruct s as [|d s]; cbn [hd tl starts_with].
    + destruct (ceqb_spec c NUL) as [->|_]; [exfalso; apply N2; left; reflexivity|reflexivity].
    + destruct (ceqb c d); [|reflexivity]. cbn [length] in *. rewrite IH by (try assumption; lia).
      cbn [andb]. replace (S m + length p) with (m + S (length p)) by lia. reflexivity.
Qed.
Lemma starts_spec : forall p s, starts_with p s = true <-> exists r, s = p ++ r.
Proof.
  induction p as [|c p IH]; intros s; cbn [starts_with]; [split; [exists s; reflexivity|reflexivity]|].
  destruct s as [|d s]; [split; [discriminate|intros [r E]; discriminate]|]. rewrite Bool.andb_true_iff, IH.
  destruct (ceqb_spec c d) as [->|N].
  - split; [intros (_ & r & ->); exists r; reflexivity|]. intros [r E]. injection E as ->. eauto.
  - split; [intros [X _]; discriminate|]. intros [r E]. injection E as E _. congruence.
Qed.
(** the first place of [q] in [s], if there is one *)
Lemma scan_literal : forall q, literal q -> q <> [] -> forall s k fuel, length q + length s + 2 < fuel ->
  (exists w r, s = w ++ q ++ r /\ scan fuel q s k = Some (length q, k + length w, q ++ r) /\
     forall w' r', s = w' ++ q ++ r' -> length w <= length w') \/
  (forall w r, s <> w ++ q ++ r) /\ scan fuel q s k = Some (0, k + length s, []).
Proof.
  intros q Lq Nq. induction s as [|d s IH]; intros k fuel L; (destruct fuel as [|fuel]; [lia|]); cbn [scan].
  - right. split; [intros w r E; symmetry in E; apply app_eq_nil in E; destruct E as [_ E]; apply app_eq_nil in E; tauto|].
    destruct fuel as [|fuel]; [lia|]. cbn [impl]. destruct q; [tauto|]. cbn [andb]. rewrite Nat.add_0_r. reflexivity.
  - destruct fuel as [|fuel]; [cbn in L; lia|]. cbn [impl].
    replace ((match q with [] => true | _ => false end) && negb false) with false by (destruct q; [tauto|reflexivity]).
    rewrite loop_literal by (try assumption; cbn in L; lia).
    destruct (starts_with q (d :: s)) eqn:Sw.
    + left. apply starts_spec in Sw. destruct Sw as [r E]. exists [], r. cbn [app length Nat.add]. split; [exact E|].
      split; [rewrite Nat.add_0_r, <- E; reflexivity|]. intros. lia.
    + assert (No : forall r, d :: s <> q ++ r).
      { intros r E. assert (X : starts_with q (d :: s) = true) by (apply starts_spec; exists r; exact E). congruence. }
      cbn [tl]. destruct (IH (S k) (S fuel)) as [(w & r & E & Sc & Fi)|(Na & Sc)]; [cbn in L; lia|..].
      * left. exists (d :: w), r. split; [rewrite E; reflexivity|]. split; [rewrite Sc; cbn [length]; do 2 f_equal; f_equal; lia|].
        intros [|x w'] r' E'; [exfalso; apply (No r'); exact E'|]. injection E' as <- E'. cbn [length]. apply Fi in E'. lia.
      * right. split; [|rewrite Sc; cbn [length]; do 2 f_equal; f_equal; lia].
        intros [|x w'] r' E'; [apply (No r'); exact E'|]. injection E' as <- E'. apply (Na w' r'). exact E'.
Qed.
Lemma loop_prefix : forall p rest s m fuel, literal p -> length p < fuel ->
  loop fuel (p ++ STAR :: rest) s m =
  if starts_with p s then loop (fuel - length p) (STAR :: rest) (skipn (length p) s) (m + length p) else Some None.
Proof.
  induction p as [|c p IH]; intros rest s m fuel Lp L.
  - cbn [app starts_with length skipn]. rewrite Nat.sub_0_r, Nat.add_0_r. reflexivity.
  - destruct fuel as [|fuel]; [lia|]. cbn [app loop]. assert (Lt := literal_tail c p Lp). destruct Lp as [N1 N2].
    destruct (ceqb_spec c STAR) as [->|_]; [exfalso; apply N1; left; reflexivity|].
    destruct s as [|d s]; cbn [hd tl starts_with].
    + destruct (ceqb_spec c NUL) as [->|_]; [exfalso; apply N2; left; reflexivity|reflexivity].
    + destruct (ceqb c d); [|reflexivity]. cbn [length] in *. rewrite IH by (try assumption; lia).
      cbn [andb skipn Nat.sub]. destruct (starts_with p s); [|reflexivity].
      replace (S m + length p) with (m + S (length p)) by lia. reflexivity.
Qed.
