(** The lexer ends, and outside of format mode writes only inside its buffer. *)
From Verif Require Import Base M_Format M_Lexer.

Lemma length_tl {A} (l : list A) : length (tl l) = length l - 1.
Proof. destruct l; cbn; lia. Qed.

Lemma span_length f s a b : span f s = (a, b) -> length s = length a + length b.
Proof. intros E. destruct (span_spec f s a b E) as (-> & _). apply app_length. Qed.
Lemma span_stop f s a b : span f s = (a, b) -> f NUL = false -> f (hd NUL b) = false.
Proof.
  revert a b. induction s as [|c s IH]; intros a b E Z; cbn in E.
  - injection E as <- <-. exact Z.
  - destruct (f c) eqn:F.
    + destruct (span f s) as [a' b'] eqn:E'. injection E as <- <-. eapply IH; eauto.
    + injection E as <- <-. exact F.
Qed.

(** ** Escapes *)
Lemma hexes_length n : forall s num s' r, hexes n s num = (s', r) ->
  length s' <= length s /\ (r <> None -> length s' + n = length s \/ n = 0 /\ s' = s)
  /\ (s <> [] -> s' <> []).
Proof.
  induction n as [|n IH]; intros s num s' r E; cbn [hexes] in E.
  - injection E as <- <-. repeat split; auto.
  - destruct (is_hex (hd NUL (tl s))) eqn:F.
    + destruct s as [|a [|b s]]; cbn in F; try discriminate F. cbn [tl] in E.
      destruct (IH _ _ _ _ E) as (A1 & A2 & A3). cbn [length] in *. split; [lia|]. split.
      * intros X. left. destruct (A2 X) as [Y|(Y & ->)]; [lia|]. cbn. lia.
      * intros _. apply A3. discriminate.
    + injection E as <- <-. split; [lia|]. split; [intros X; now destruct X|auto].
Qed.
Lemma octals_length n : forall s num s' r, octals n s num = (s', r) ->
  length s' <= length s /\ (s <> [] -> s' <> []).
Proof.
  induction n as [|n IH]; intros s num s' r E; cbn [octals] in E; [injection E as <- <-; auto|].
  destruct (is_digit (hd NUL (tl s))) eqn:F; [|injection E as <- <-; auto].
  destruct s as [|a [|b s]]; cbn in F; try discriminate F. cbn [tl] in E.
  destruct (IH _ _ _ _ E) as (A1 & A2). cbn [length] in *. split; [lia|]. intros _. apply A2. discriminate.
Qed.
Lemma write_utf8_length v u : write_utf8 v = Some u -> length u <= 4.
Proof.
  unfold write_utf8. repeat (destruct (_ <=? _)%N; [intros E; injection E as <-; cbn; lia|]). discriminate.
Qed.
Lemma puts_length u : forall l acc l' acc', puts u (l, acc) = (l', acc') ->
  rest l' = rest l /\ data_i l' = data_i l /\ length acc' = length acc + length u
  /\ hi l' <= Nat.max (hi l) (data_i l + length acc').
Proof.
  induction u as [|c u IH]; intros l acc l' acc' E; unfold puts in *; cbn [fold_left] in E.
  - injection E as <- <-. cbn. repeat split; lia.
  - unfold put at 2 in E. apply IH in E as (A1 & A2 & A3 & A4). cbn in *. rewrite app_length in A3. cbn in A3.
    repeat split; try assumption; lia.
Qed.
Lemma put_length c l acc l' acc' : put c (l, acc) = (l', acc') ->
  rest l' = rest l /\ data_i l' = data_i l /\ length acc' = length acc + 1
  /\ hi l' <= Nat.max (hi l) (data_i l + length acc').
Proof. intros E. apply (puts_length [c]). exact E. Qed.

Lemma escape_length l acc : rest l <> [] ->
  match escape l acc with
  | SCont (l', acc') => data_i l' = data_i l /\ rest l' <> []
      /\ length acc' + length (rest l') <= length acc + length (rest l) + 1
      /\ length (rest l') <= length (rest l)
      /\ hi l' <= Nat.max (hi l) (data_i l + length acc')
  | SDone _ => False
  | SFail (l', acc') => data_i l' = data_i l /\ acc' = acc /\ length (rest l') <= length (rest l) /\ hi l' = hi l
  end.
Proof.
  intros Ne. unfold escape. destruct (rest l) as [|a r] eqn:E; [now destruct Ne|]. clear Ne.
  unfold peek1, advance. rewrite E. cbn [tl].
  destruct (find _ simple_escapes) as [[x v]|] eqn:F.
  { destruct r as [|b r]; [discriminate F|].
    destruct (put v (with_rest (b :: r) l, acc)) as [l' acc'] eqn:P.
    apply put_length in P as (P1 & P2 & P3 & P4). cbn in *. rewrite P1. cbn.
    repeat split; try assumption; try discriminate; lia. }
  destruct (_ || _ || _) eqn:G.
  { destruct (hexes _ _ []) as [r' [num|]] eqn:H.
    - destruct r as [|b r]; [discriminate G|].
      destruct (hexes_length _ _ _ _ _ H) as (A1 & A2 & A3). cbn [rest with_rest] in *.
      destruct (write_utf8 _) as [u|] eqn:U.
      + apply write_utf8_length in U.
        destruct (puts u (with_rest r' l, acc)) as [l' acc'] eqn:P.
        apply puts_length in P as (P1 & P2 & P3 & P4). cbn in *. rewrite P1.
        assert (A4 : length r' + 2 <= S (length r)).
        { destruct (A2 ltac:(discriminate)) as [A4|(A4 & _)].
          - destruct (ceqb b "x"); [|destruct (ceqb b "u")]; lia.
          - destruct (ceqb b "x"); [|destruct (ceqb b "u")]; discriminate A4. }
        repeat split; try assumption; try lia. apply A3. discriminate.
      + cbn in *. repeat split; lia.
    - cbn in *. destruct (hexes_length _ _ _ _ _ H) as (A1 & _). repeat split. lia. }
  destruct (is_digit (hd NUL r)) eqn:D.
  { destruct (octals 3 (a :: r) []) as [r' num] eqn:O.
    assert (A : length r' <= length r /\ r' <> []).
    { cbn [octals tl] in O. rewrite D in O. destruct r as [|b r]; [discriminate D|].
      destruct (is_digit (hd NUL (tl (b :: r)))) eqn:D2.
      - cbn [tl] in *. destruct r as [|c r]; [discriminate D2|]. cbn [tl hd] in *.
        destruct (is_digit (hd NUL r)) eqn:D3; injection O as <- <-; cbn; split; try lia; try discriminate.
        destruct r; [discriminate D3|discriminate].
      - injection O as <- <-. split; [lia|discriminate]. }
    match goal with |- context [put ?v (?x, acc)] => destruct (put v (x, acc)) as [l' acc'] eqn:P end.
    apply put_length in P as (P1 & P2 & P3 & P4). cbn in *. rewrite P1.
    repeat split; try assumption; try lia. apply A. }
  destruct (ceqb (hd NUL r) NUL) eqn:Z.
  { rewrite E. repeat split. lia. }
  destruct r as [|b r]; [discriminate Z|].
  destruct (put BSLASH (l, acc)) as [l1 acc1] eqn:P1. apply put_length in P1 as (A1 & A2 & A3 & A4).
  match goal with |- context [put ?v (?x, acc1)] => destruct (put v (x, acc1)) as [l2 acc2] eqn:P2 end.
  apply put_length in P2 as (B1 & B2 & B3 & B4). cbn in *. rewrite B1, A1, E. cbn.
  repeat split; try discriminate; lia.
Qed.

(** ** Strings *)
Section BUFFER.
Context (m : mode) (n : nat).

Definition room (fs : bool) (l : lx) (acc : bytes) : Prop :=
  hi l <= n + 1 /\ (rest l = [] \/ data_i l + length acc + (if fs then 1 else 0) + length (rest l) <= n).

Lemma identifier_room l : data_i l + length (rest l) <= n -> hi l <= n + 1 ->
  let l' := lex_identifier m l in
  hi l' <= n + 1 /\ data_i l' + length (rest l') <= n + 1 /\ is_inside (peek l') = false
  /\ length (rest l') <= length (rest l).
Proof.
  intros D H. unfold lex_identifier. destruct (span is_inside (rest l)) as [id r] eqn:E.
  pose proof (span_length _ _ _ _ E) as L. pose proof (span_stop _ _ _ _ E eq_refl) as P.
  destruct (keyword m id); cbn; unfold peek; cbn; repeat split; try assumption; try lia.
Qed.
Lemma identifier_consumes l : is_start (peek l) = true -> length (rest (lex_identifier m l)) < length (rest l).
Proof.
  intros H. unfold lex_identifier. destruct (span is_inside (rest l)) as [id r] eqn:E.
  assert (L : length r < length (rest l)).
  { rewrite (span_length _ _ _ _ E). unfold peek in H. destruct (rest l) as [|c q]; [discriminate H|].
    cbn [hd] in H. cbn [span] in E. unfold is_inside at 1 in E. rewrite H in E. cbn [orb] in E.
    destruct (span is_inside q) as [a b]. injection E as <- <-. cbn. lia. }
  destruct (keyword m id); exact L.
Qed.

(** one step of a string consumes something *)
Lemma string_char_consumes ml fs l acc :
  match lex_string_char m ml fs l acc with
  | SCont (l', _) => length (rest l') < length (rest l)
  | SDone (l', _) => length (rest l') < length (rest l)
  | SFail (l', _) => length (rest l') <= length (rest l)
  end.
Proof.
  unfold lex_string_char. destruct (rest l) as [|c r] eqn:E; [rewrite E; lia|].
  assert (P : forall c', match put c' (l, acc) with (l', acc') => length (rest (advance l')) < length (c :: r) end).
  { intros c'. cbn. rewrite E. cbn. lia. }
  destruct (ceqb c NL).
  { destruct ml; [apply (P c)|]. rewrite E. cbn. lia. }
  destruct (ceqb c BSLASH).
  { destruct ml; [apply (P c)|]. pose proof (escape_length l acc) as X. rewrite E in X. specialize (X ltac:(discriminate)).
    destruct (escape l acc) as [[l' acc']|[l' acc']|[l' acc']]; cbn in *.
    - rewrite length_tl. destruct X as (_ & N & _ & L & _). destruct (rest l'); [now destruct N|]. cbn in *. lia.
    - destruct X.
    - destruct X as (_ & _ & L & _). lia. }
  destruct (ceqb c NUL); [rewrite E; cbn; lia|].
  destruct (ceqb c QUOTE).
  { destruct ml; [|cbn; rewrite E; cbn; lia].
    destruct (_ && _); [|apply (P c)]. cbn. rewrite E, !length_tl. cbn. lia. }
  destruct (_ && _ && _) eqn:F; [|apply (P c)].
  apply andb_true_iff in F as [_ F].
  assert (X : length (rest (lex_identifier m (push (plain tok_stringify) (push (plain tok_plus)
     (push (mkTok tok_string acc 0) (with_data (data_i (advance l) + length acc + 1) (hi (advance l)) (advance l)))))))
     < length (c :: r)).
  { eapply Nat.lt_le_trans; [apply identifier_consumes|].
    - unfold peek, peek1 in *. cbn. exact F.
    - cbn. rewrite E. cbn. lia. }
  change (length (rest (advance (lex_identifier m (push (plain tok_stringify) (push (plain tok_plus)
     (push (mkTok tok_string acc 0) (with_data (data_i (advance l) + length acc + 1) (hi (advance l)) (advance l))))))))
     < length (c :: r)).
  unfold advance at 1. cbn [rest with_rest]. rewrite length_tl. lia.
Qed.

Lemma string_char_room ml fs l acc : format m = false -> room fs l acc ->
  match lex_string_char m ml fs l acc with
  | SCont (l', acc') => room fs l' acc'
  | SDone (l', acc') => hi l' <= n + 1 /\ data_i l' + length acc' + 1 + length (rest l') <= n
  | SFail (l', acc') => room false l' acc'
  end.
Proof.
  intros Hf [H R]. unfold lex_string_char. destruct (rest l) as [|c r] eqn:E.
  { split; [assumption|now left]. }
  destruct R as [R|R]; [discriminate R|]. cbn [length] in R.
  assert (P : forall c', match put c' (l, acc) with (l', acc') => room fs (advance l') acc' end).
  { intros c'. destruct (put c' (l, acc)) as [l' acc'] eqn:P. apply put_length in P as (A1 & A2 & A3 & A4).
    split; cbn; [lia|]. right. rewrite A1, E, A2, A3. cbn. lia. }
  assert (F0 : room false l acc).
  { split; [assumption|]. right. rewrite E. cbn [length]. lia. }
  destruct (ceqb c NL).
  { destruct ml; [apply (P c)|exact F0]. }
  destruct (ceqb c BSLASH).
  { destruct ml; [apply (P c)|]. pose proof (escape_length l acc) as X. rewrite E in X. specialize (X ltac:(discriminate)).
    destruct (escape l acc) as [[l' acc']|[l' acc']|[l' acc']].
    - destruct X as (X1 & X2 & X3 & X4 & X5). assert (X6 : 1 <= length (rest l')) by (destruct (rest l'); [now destruct X2|cbn; lia]).
      cbn [length] in *. split; cbn; [lia|]. right. rewrite length_tl, X1. lia.
    - destruct X.
    - destruct X as (X1 & -> & X3 & X4). split; [lia|]. right. rewrite X1. cbn [length] in *. lia. }
  destruct (ceqb c NUL); [exact F0|].
  destruct (ceqb c QUOTE).
  { destruct ml.
    - destruct (_ && _); [|apply (P c)]. cbn. rewrite E, !length_tl. cbn. split; [assumption|lia].
    - cbn. rewrite E. cbn. split; [assumption|lia]. }
  destruct (_ && _ && _) eqn:F; [|apply (P c)].
  apply andb_true_iff in F as [F S]. apply andb_true_iff in F as [_ ->]. cbn in R.
  set (l0 := push (plain tok_stringify) (push (plain tok_plus)
     (push (mkTok tok_string acc 0) (with_data (data_i (advance l) + length acc + 1) (hi (advance l)) (advance l))))).
  destruct (identifier_room l0) as (A1 & A2 & _ & A4).
  { subst l0. cbn. rewrite E. cbn. lia. }
  { subst l0. cbn. assumption. }
  set (l1 := lex_identifier m l0) in *.
  split; [exact A1|].
  change (tl (rest l1) = [] \/ data_i l1 + 0 + 1 + length (tl (rest l1)) <= n). rewrite length_tl.
  destruct (rest l1) as [|d q] eqn:Er; [now left|]. right. cbn [length] in *.
  (* the identifier starts after the @ *)
  assert (B1 : data_i l1 + length (rest l1) <= n).
  { subst l1. unfold lex_identifier in *. destruct (span is_inside (rest l0)) as [id r'] eqn:Es.
    pose proof (span_length _ _ _ _ Es) as L. subst l0. cbn in L. rewrite E in L. cbn in L.
    destruct (keyword m id); cbn in *; lia. }
  rewrite Er in B1. cbn in B1. lia.
Qed.

Lemma recover_length ml : forall s q, length (recover ml q s) <= length s.
Proof.
  induction s as [|c s IH]; intros q; cbn [recover]; [lia|].
  destruct (_ || _); [lia|]. destruct (ceqb c QUOTE).
  - destruct (_ || _); cbn; [lia|]. specialize (IH (S q)). lia.
  - specialize (IH q). cbn. lia.
Qed.

Lemma string_loop_consumes ml fs : forall fuel l acc, length (rest l) < fuel ->
  exists ok l' acc', string_loop m ml fs fuel l acc = Some (ok, l', acc') /\ length (rest l') <= length (rest l).
Proof.
  induction fuel as [|fuel IH]; intros l acc L; [lia|]. cbn [string_loop].
  pose proof (string_char_consumes ml fs l acc) as C.
  destruct (lex_string_char m ml fs l acc) as [[l' acc']|[l' acc']|[l' acc']].
  - destruct (IH l' acc' ltac:(lia)) as (ok & l2 & acc2 & E & X). exists ok, l2, acc2. split; [exact E|lia].
  - do 3 eexists. split; [reflexivity|]. cbn. lia.
  - do 3 eexists. split; [reflexivity|]. cbn. pose proof (recover_length ml (rest l') 0). lia.
Qed.
Lemma string_loop_room ml fs : format m = false -> forall fuel l acc ok l' acc', room fs l acc ->
  string_loop m ml fs fuel l acc = Some (ok, l', acc') ->
  hi l' <= n + 1 /\ (rest l' = [] \/ data_i l' + length acc' + (if ok then 1 else 0) + length (rest l') <= n).
Proof.
  intros Hf. induction fuel as [|fuel IH]; intros l acc ok l' acc' R E; [discriminate E|]. cbn [string_loop] in E.
  pose proof (string_char_room ml fs l acc Hf R) as C.
  destruct (lex_string_char m ml fs l acc) as [[l1 acc1]|[l1 acc1]|[l1 acc1]].
  - eapply IH; eauto.
  - injection E as <- <- <-. cbn. lia.
  - injection E as <- <- <-. destruct C as [C1 C2]. split; [exact C1|]. cbn.
    pose proof (recover_length ml (rest l1) 0) as X. destruct C2 as [C2|C2]; [left; rewrite C2; reflexivity|right; lia].
Qed.

(** ** Tokens *)
Definition inv (l : lx) : Prop :=
  hi l <= n + 1
  /\ (rest l = [] \/ data_i l + length (rest l) <= n
      \/ (data_i l + length (rest l) <= n + 1 /\ is_inside (peek l) = false)).

Lemma skip_blanks_consumes : forall s com l, length (rest (skip_blanks m s com l)) <= length s.
Proof.
  fix IH 1. intros [|c s] com l; cbn [skip_blanks].
  - destruct com; cbn; lia.
  - destruct com as [t|].
    + destruct (_ || _); cbn; [lia|]. specialize (IH s (Some (t ++ [c])) l). lia.
    + destruct (ceqb c "#"); [specialize (IH s (Some []) l); cbn; lia|].
      destruct (is_blank c); [specialize (IH s None l); cbn; lia|].
      destruct (ceqb c BSLASH); [|cbn; lia]. destruct s as [|d s]; [cbn; lia|].
      destruct (ceqb d NL); [specialize (IH s None l); cbn; lia|cbn; lia].
Qed.
Lemma skip_blanks_data : format m = false -> forall s com l,
  hi (skip_blanks m s com l) = hi l /\ data_i (skip_blanks m s com l) = data_i l.
Proof.
  intros Hf. fix IH 1. intros [|c s] com l; cbn [skip_blanks]; unfold comment; rewrite ?Hf.
  - destruct com; split; reflexivity.
  - destruct com as [t|].
    + destruct (_ || _); [split; reflexivity|]. apply IH.
    + destruct (ceqb c "#"); [apply IH|]. destruct (is_blank c); [apply IH|].
      destruct (ceqb c BSLASH); [|split; reflexivity]. destruct s as [|d s]; [split; reflexivity|].
      destruct (ceqb d NL); [apply IH|split; reflexivity].
Qed.
Lemma skip_blanks_same : forall s l, length (rest (skip_blanks m s None l)) = length s -> rest (skip_blanks m s None l) = s.
Proof.
  intros [|c s] l; cbn [skip_blanks]; [reflexivity|]. cbn [length].
  pose proof (skip_blanks_consumes s (Some []) l) as A. pose proof (skip_blanks_consumes s None l) as A2.
  destruct (ceqb c "#"); [lia|]. destruct (is_blank c); [lia|].
  destruct (ceqb c BSLASH); [|reflexivity]. destruct s as [|d s]; [reflexivity|].
  destruct (ceqb d NL); [|reflexivity]. pose proof (skip_blanks_consumes s None l) as A3. cbn. lia.
Qed.

Lemma take_digits_length base : forall s v v' e, take_digits base s v = (v', e) -> length e <= length s.
Proof.
  induction s as [|c s IH]; intros v v' e E; cbn in E; [injection E as <- <-; cbn; lia|].
  destruct (_ <? _)%Z; [|injection E as <- <-; lia]. apply IH in E. cbn. lia.
Qed.
Lemma strtol_base_length base s v e : strtol_base base s = Some (v, e) -> length e < length s.
Proof.
  unfold strtol_base. intros E.
  assert (D : forall q, length (dropw c_isspace q) <= length q).
  { induction q as [|c q IH]; cbn; [lia|]. destruct (c_isspace c); cbn; lia. }
  specialize (D s). set (l1 := dropw c_isspace s) in *. clearbody l1.
  match type of E with context [let '(_, _) := ?x in _] => assert (D2 : length (snd x) <= length l1); [|destruct x as [neg l2]] end.
  { destruct l1 as [|c r]; [cbn; lia|]. destruct (ceqb c "-"); [cbn; lia|]. destruct (ceqb c "+"); cbn; lia. }
  cbn [snd] in D2.
  match type of E with context [starts_digit base ?x] => assert (D3 : length x <= length l2); [|set (l3 := x) in *] end.
  { destruct l2 as [|z [|x r]]; [lia|lia|]. destruct (_ && _); cbn; lia. }
  clearbody l3. destruct l3 as [|c l3]; [discriminate E|]. cbn [starts_digit take_digits] in E.
  destruct (_ <? _)%Z; [|discriminate E]. destruct (take_digits base l3 _) as [w q] eqn:T.
  apply take_digits_length in T. injection E as <- <-. cbn in *. lia.
Qed.

Lemma number_consumes l : is_digit (peek l) = true ->
  match number m l with
  | Cont l' => length (rest l') < length (rest l)
  | Fail l' => length (rest l') <= length (rest l)
  | Done _ => False
  end.
Proof.
  intros H. unfold number.
  assert (N : forall start base l0, length (rest l0) <= length (rest l) ->
    match number_from m start base l0 with
    | Cont l' => length (rest l') < length (rest l) | Fail l' => length (rest l') <= length (rest l) | Done _ => False end).
  { intros start base l0 L. unfold number_from. destruct (strtol_base base (rest l0)) as [[v e]|] eqn:E; [|exact L].
    apply strtol_base_length in E. destruct (_ || _); [exact L|]. destruct (format m); cbn; lia. }
  assert (L2 : length (skipn 2 (rest l)) <= length (rest l)) by (rewrite skipn_length; lia).
  destruct (ceqb (peek l) "0").
  - destruct (_ || _); [now apply N|]. destruct (_ || _); [now apply N|]. destruct (_ || _); [now apply N|].
    unfold peek in H. destruct (rest l) as [|c r] eqn:E; [discriminate H|].
    destruct (format m); cbn; rewrite E; cbn; lia.
  - now apply N.
Qed.
Lemma number_data l : format m = false ->
  match number m l with
  | Cont l' | Fail l' | Done l' => hi l' = hi l /\ data_i l' = data_i l
  end.
Proof.
  intros Hf. unfold number, number_from. rewrite Hf.
  repeat (match goal with |- context [if ?b then _ else _] => destruct b
                        | |- context [match ?x with Some _ => _ | None => _ end] => destruct x as [[? ?]|] end); split; reflexivity.
Qed.

Lemma lex_string_consumes start l fs : rest l <> [] ->
  exists r, lex_string m start l fs = Some r
    /\ match r with
       | Cont l' | Fail l' => length (rest l') < length (rest l)
       | Done _ => False
       end.
Proof.
  intros Ne. unfold lex_string.
  set (ml := starts_with _ _). set (l0 := with_rest _ l).
  assert (L : length (rest l0) < length (rest l)).
  { subst l0. cbn [rest with_rest]. rewrite skipn_length. destruct (rest l); [now destruct Ne|]. destruct ml; cbn; lia. }
  destruct (string_loop_consumes ml (fs && negb (format m)) (S (length (rest l0))) l0 [] ltac:(lia)) as (ok & l' & acc' & E & X).
  rewrite E. destruct (format m); destruct ok; eexists; (split; [reflexivity|]); cbn; lia.
Qed.
Lemma lex_string_room start l (fs : bool) r : format m = false ->
  hi l <= n + 1 -> rest l <> [] -> data_i l + length (rest l) <= (if fs then n else n + 1) ->
  lex_string m start l fs = Some r ->
  match r with
  | Cont l' => hi l' <= n + 1 /\ (rest l' = [] \/ data_i l' + length (rest l') <= n)
  | Fail l' => hi l' <= n + 1 /\ (rest l' = [] \/ data_i l' + length (rest l') <= n + 1)
  | Done _ => False
  end.
Proof.
  intros Hf H Ne D. unfold lex_string. set (ml := starts_with _ _). set (l0 := with_rest _ l). rewrite Hf.
  assert (R0 : room (fs && true) l0 []).
  { split; [exact H|]. subst l0. cbn [rest with_rest data_i length]. rewrite skipn_length.
    destruct (rest l) as [|c r0]; [now destruct Ne|]. cbn [length] in *.
    destruct ml, fs; cbn [andb]; try (right; lia).
    all: destruct r0 as [|c1 r0]; cbn [length] in *; [left|right; lia]; reflexivity. }
  destruct (string_loop m ml _ _ l0 []) as [[[ok l'] acc']|] eqn:E; [|discriminate].
  intros X. injection X as <-. destruct (string_loop_room ml _ Hf _ _ _ _ _ _ R0 E) as (A1 & A2).
  destruct ok; cbn; (split; [lia|]); destruct A2; auto; right; lia.
Qed.

Lemma tokenize_one_consumes l : rest l <> [] ->
  exists r, tokenize_one m l = Some r
    /\ match r with
       | Cont l' => length (rest l') < length (rest l)
       | Fail l' => length (rest (advance l')) < length (rest l)
       | Done _ => True
       end.
Proof.
  intros Ne. unfold tokenize_one. pose proof (skip_blanks_consumes (rest l) None l) as K.
  set (l0 := skip_blanks m (rest l) None l) in *. clearbody l0.
  assert (NE : peek l0 <> NUL -> rest l0 <> []) by (unfold peek; intros X E; rewrite E in X; now apply X).
  destruct (ceqb (peek l0) "f" && ceqb (peek1 l0) QUOTE) eqn:F.
  { apply andb_true_iff in F as [_ F]. apply ceqb_eq in F. unfold peek1 in F.
    destruct (lex_string_consumes (rest l0) (advance l0) true) as (r & E & X).
    - cbn. intros Z. rewrite Z in F. discriminate F.
    - exists r. split; [exact E|]. cbn in X. rewrite length_tl in X. destruct r; cbn; rewrite ?length_tl; try lia; exact I. }
  destruct (ceqb_spec (peek l0) QUOTE) as [Q|Q].
  { destruct (lex_string_consumes (rest l0) l0 false) as (r & E & X); [apply NE; rewrite Q; discriminate|].
    exists r. split; [exact E|]. destruct r; cbn; rewrite ?length_tl; try lia; exact I. }
  destruct (is_start (peek l0)) eqn:S.
  { eexists. split; [reflexivity|]. pose proof (identifier_consumes l0 S). cbv beta iota. lia. }
  destruct (is_digit (peek l0)) eqn:D.
  { eexists. split; [reflexivity|]. pose proof (number_consumes l0 D) as X.
    assert (1 <= length (rest l0)) by (unfold peek in D; destruct (rest l0); [discriminate D|cbn; lia]).
    destruct (number m l0); cbn; rewrite ?length_tl; try lia; exact I. }
  eexists. split; [reflexivity|]. unfold lex_other.
  assert (C : forall t l', rest l' = rest l0 -> peek l0 <> NUL -> length (rest (advance (push (plain t) l'))) < length (rest l)).
  { intros t l' E P. cbn. rewrite E, length_tl. specialize (NE P). destruct (rest l0); [now destruct NE|]. cbn in *. lia. }
  assert (A : peek l0 <> NUL -> length (rest (advance l0)) < length (rest l)).
  { intros P. cbn. rewrite length_tl. specialize (NE P). destruct (rest l0); [now destruct NE|]. cbn in *. lia. }
  destruct (ceqb_spec (peek l0) NL) as [P|_].
  { destruct (_ || _ || _); [destruct (format m)|]; try (apply C; [reflexivity|rewrite P; discriminate]).
    apply A. rewrite P. discriminate. }
  destruct (ceqb_spec (peek l0) "(") as [P|_]; [apply C; [reflexivity|rewrite P; discriminate]|].
  destruct (ceqb_spec (peek l0) ")") as [P|_].
  { destruct (paren l0); [apply A|apply C; [reflexivity|]]; rewrite P; discriminate. }
  destruct (ceqb_spec (peek l0) "[") as [P|_]; [apply C; [reflexivity|rewrite P; discriminate]|].
  destruct (ceqb_spec (peek l0) "]") as [P|_].
  { destruct (bracket l0); [apply A|apply C; [reflexivity|]]; rewrite P; discriminate. }
  destruct (ceqb_spec (peek l0) "{") as [P|_]; [apply C; [reflexivity|rewrite P; discriminate]|].
  destruct (ceqb_spec (peek l0) "}") as [P|_].
  { destruct (curl l0); [apply A|apply C; [reflexivity|]]; rewrite P; discriminate. }
  destruct (ceqb_spec (peek l0) NUL) as [P|P].
  { destruct (rest l0) as [|c r] eqn:E; [exact I|]. cbn. rewrite E. cbn in *. lia. }
  specialize (NE P). destruct (symbol m (peek l0) (peek1 l0)) as [[t two]|]; [|now apply A].
  cbn. rewrite !length_tl. destruct (rest l0) eqn:E; [now destruct NE|]. destruct two; cbn; rewrite ?E; cbn in *; rewrite ?length_tl; lia.
Qed.

Lemma tokenize_ends : forall fuel ok l, length (rest l) < fuel -> tokenize m fuel ok l <> None.
Proof.
  induction fuel as [|fuel IH]; intros ok l L; [lia|]. cbn [tokenize].
  destruct (rest l) as [|c r] eqn:E.
  { unfold tokenize_one. rewrite E. cbn. discriminate. }
  destruct (tokenize_one_consumes l) as (x & T & X); [rewrite E; discriminate|]. rewrite T. rewrite E in X. cbn in *.
  destruct x; [apply IH; cbn; lia|apply IH; cbn; lia|discriminate].
Qed.

Lemma inside_f : is_inside "f" = true. Proof. reflexivity. Qed.

Lemma tokenize_one_room l r : format m = false -> inv l -> tokenize_one m l = Some r ->
  match r with Cont l' => inv l' | Fail l' => inv (advance l') | Done l' => hi l' <= n + 1 end.
Proof.
  intros Hf [H R]. unfold tokenize_one. pose proof (skip_blanks_consumes (rest l) None l) as K.
  pose proof (skip_blanks_same (rest l) l) as K2. destruct (skip_blanks_data Hf (rest l) None l) as [K3 K4].
  set (l0 := skip_blanks m (rest l) None l) in *. clearbody l0.
  assert (I0 : inv l0).
  { split; [lia|]. destruct R as [R|R].
    - left. rewrite R in K. destruct (rest l0); [reflexivity|cbn in K; lia].
    - destruct (Nat.eq_dec (length (rest l0)) (length (rest l))) as [E|E].
      + right. unfold peek. rewrite (K2 E), K4. exact R.
      + right. left. lia. }
  clear H R K K2 K3 K4 l. destruct I0 as [H R].
  assert (NE : peek l0 <> NUL -> rest l0 <> []) by (unfold peek; intros X E; rewrite E in X; now apply X).
  assert (INS : is_inside (peek l0) = true -> data_i l0 + length (rest l0) <= n).
  { intros X. destruct R as [R|[R|[R X2]]]; [|exact R|congruence].
    unfold peek in X. rewrite R in X. discriminate X. }
  assert (ANY : peek l0 <> NUL -> data_i l0 + length (rest l0) <= n + 1).
  { intros X. destruct R as [R|[R|[R _]]]; [now destruct (NE X)|lia|exact R]. }
  assert (STEP : forall l', hi l' = hi l0 -> data_i l' = data_i l0 -> length (rest l') < length (rest l0) -> inv l').
  { intros l' A1 A2 A3. split; [lia|]. right. left. assert (data_i l0 + length (rest l0) <= n + 1); [|lia].
    destruct R as [R|[R|[R _]]]; [rewrite R in A3; cbn in A3; lia|lia|exact R]. }
  destruct (ceqb (peek l0) "f" && ceqb (peek1 l0) QUOTE) eqn:F.
  { apply andb_true_iff in F as [F0 F]. apply ceqb_eq in F0, F. unfold peek1 in F. intros E.
    assert (Di : data_i l0 + length (rest l0) <= n) by (apply INS; rewrite F0; reflexivity).
    assert (N1 : tl (rest l0) <> []) by (intros Z; rewrite Z in F; discriminate F).
    apply (lex_string_room (rest l0) (advance l0) true r Hf) in E.
    - destruct r as [l'|l'|l']; [| |destruct E].
      + destruct E as [E1 E2]. split; [exact E1|]. tauto.
      + destruct E as [E1 E2]. split; [exact E1|]. cbn. rewrite length_tl.
        destruct (rest l') eqn:Z; [now left|]. destruct E2 as [E2|E2]; [discriminate E2|]. right. left. cbn in *. lia.
    - exact H.
    - exact N1.
    - cbn. rewrite length_tl. lia. }
  destruct (ceqb_spec (peek l0) QUOTE) as [Q|Q].
  { intros E. assert (N1 : rest l0 <> []) by (apply NE; rewrite Q; discriminate).
    apply (lex_string_room _ l0 false r Hf H N1) in E; [|apply ANY; rewrite Q; discriminate].
    destruct r as [l'|l'|l']; [| |destruct E].
    - destruct E as [E1 E2]. split; [exact E1|]. tauto.
    - destruct E as [E1 E2]. split; [exact E1|]. cbn. rewrite length_tl.
      destruct (rest l') eqn:Z; [now left|]. destruct E2 as [E2|E2]; [discriminate E2|]. right. left. cbn in *. lia. }
  destruct (is_start (peek l0)) eqn:S.
  { intros E. injection E as <-. destruct (identifier_room l0) as (A1 & A2 & A3 & A4); [|exact H|].
    - apply INS. unfold is_inside. now rewrite S.
    - split; [exact A1|]. right. right. auto. }
  destruct (is_digit (peek l0)) eqn:D.
  { intros E. injection E as <-. pose proof (number_consumes l0 D) as X. pose proof (number_data l0 Hf) as Y.
    assert (1 <= length (rest l0)) by (unfold peek in D; destruct (rest l0); [discriminate D|cbn; lia]).
    destruct (number m l0) as [l'|l'|l']; [apply STEP; lia| |lia].
    apply STEP; cbn; rewrite ?length_tl; lia. }
  intros E. injection E as <-. unfold lex_other.
  assert (C : forall t l', hi l' = hi l0 -> data_i l' = data_i l0 -> rest l' = rest l0 -> peek l0 <> NUL ->
     inv (advance (push (plain t) l'))).
  { intros t l' B1 B2 B3 P. apply STEP; cbn; try assumption. rewrite B3, length_tl. specialize (NE P). destruct (rest l0); [now destruct NE|]. cbn in *. lia. }
  assert (A : peek l0 <> NUL -> inv (advance l0)).
  { intros P. apply STEP; cbn; try reflexivity. rewrite length_tl. specialize (NE P). destruct (rest l0); [now destruct NE|]. cbn in *. lia. }
  destruct (ceqb_spec (peek l0) NL) as [P|_].
  { destruct (_ || _ || _); [destruct (format m)|]; try (apply C; try reflexivity; rewrite P; discriminate).
    apply A. rewrite P. discriminate. }
  destruct (ceqb_spec (peek l0) "(") as [P|_]; [apply C; try reflexivity; rewrite P; discriminate|].
  destruct (ceqb_spec (peek l0) ")") as [P|_].
  { destruct (paren l0); [apply A|apply C; try reflexivity]; rewrite P; discriminate. }
  destruct (ceqb_spec (peek l0) "[") as [P|_]; [apply C; try reflexivity; rewrite P; discriminate|].
  destruct (ceqb_spec (peek l0) "]") as [P|_].
  { destruct (bracket l0); [apply A|apply C; try reflexivity]; rewrite P; discriminate. }
  destruct (ceqb_spec (peek l0) "{") as [P|_]; [apply C; try reflexivity; rewrite P; discriminate|].
  destruct (ceqb_spec (peek l0) "}") as [P|_].
  { destruct (curl l0); [apply A|apply C; try reflexivity]; rewrite P; discriminate. }
  destruct (ceqb_spec (peek l0) NUL) as [P|P].
  { destruct (rest l0) as [|c q] eqn:E; [exact H|]. apply STEP; cbn; try reflexivity. rewrite E. cbn. lia. }
  specialize (NE P). destruct (symbol m (peek l0) (peek1 l0)) as [[t two]|]; [|now apply A].
  apply STEP; destruct two; cbn; try reflexivity; rewrite ?length_tl; destruct (rest l0); try (now destruct NE); cbn; lia.
Qed.

Lemma tokenize_room : format m = false -> forall fuel ok l ok' l', inv l ->
  tokenize m fuel ok l = Some (ok', l') -> hi l' <= n + 1.
Proof.
  intros Hf. induction fuel as [|fuel IH]; intros ok l ok' l' I E; [discriminate E|]. cbn [tokenize] in E.
  destruct (tokenize_one m l) as [[l1|l1|l1]|] eqn:T; [| | |discriminate E];
    apply tokenize_one_room in T; try assumption; eauto.
  injection E as <- <-. exact T.
Qed.
End BUFFER.

Lemma lexer_ends m src : lexer_lex m src <> None.
Proof. unfold lexer_lex. apply tokenize_ends. cbn. lia. Qed.
Lemma lexer_room m src ok l : format m = false -> lexer_lex m src = Some (ok, l) -> hi l <= data_len src.
Proof.
  intros Hf E. unfold lexer_lex in E. unfold data_len. eapply tokenize_room; [exact Hf| |exact E].
  split; cbn; [lia|]. right. left. lia.
Qed.

Lemma tokenize_eof m : forall fuel ok l ok' l', tokenize m fuel ok l = Some (ok', l') ->
  exists ts, toks l' = ts ++ [plain tok_eof].
Proof.
  induction fuel as [|fuel IH]; intros ok l ok' l' E; [discriminate E|]. cbn [tokenize] in E.
  destruct (tokenize_one m l) as [[l1|l1|l1]|] eqn:T; [eauto|eauto| |discriminate E].
  injection E as <- <-. clear IH. unfold tokenize_one in T. set (l0 := skip_blanks m (rest l) None l) in *. clearbody l0.
  assert (S : forall start la fs, lex_string m start la fs = Some (Done l1) -> exists ts, toks l1 = ts ++ [plain tok_eof]).
  { intros start la fs X. unfold lex_string in X. destruct (string_loop _ _ _ _ _ _) as [[[ok2 l2] acc2]|]; [|discriminate X].
    destruct (format m); destruct ok2; discriminate X. }
  destruct (_ && _); [eauto|]. destruct (ceqb (peek l0) QUOTE); [eauto|].
  destruct (is_start _); [discriminate T|]. destruct (is_digit _).
  { unfold number, number_from in T. exfalso.
    repeat (match type of T with context [if ?b then _ else _] => destruct b
                        | context [match ?x with Some _ => _ | None => _ end] => destruct x as [[? ?]|] end); discriminate T. }
  unfold lex_other in T.
  repeat match type of T with
         | context [if ceqb (peek l0) NUL then _ else _] => destruct (ceqb (peek l0) NUL)
         | context [if ?b then _ else _] => destruct b; try discriminate T
         | context [match rest l0 with [] => _ | _ => _ end] => destruct (rest l0); try discriminate T
         | context [match paren l0 with 0 => _ | S _ => _ end] => destruct (paren l0); try discriminate T
         | context [match bracket l0 with 0 => _ | S _ => _ end] => destruct (bracket l0); try discriminate T
         | context [match curl l0 with 0 => _ | S _ => _ end] => destruct (curl l0); try discriminate T
         | context [match symbol m ?a ?b with Some _ => _ | None => _ end] => destruct (symbol m a b) as [[? ?]|]; try discriminate T
         end.
  injection T as <-. cbn. eauto.
Qed.

(** ** The end of the file is the last token only *)
Definition inner (l : lx) : Prop := Forall (fun k => ty k <> tok_eof) (toks l).
Lemma inner_push t l : inner l -> ty t <> tok_eof -> inner (push t l).
Proof. intros H N. apply Forall_app. split; [exact H|]. now constructor. Qed.
Lemma kw_lookup_inner table s t : (forall a b, In (a, b) table -> b <> tok_eof) -> kw_lookup table s = Some t -> t <> tok_eof.
Proof.
  intros H E. unfold kw_lookup in E. destruct (find _ table) as [[a b]|] eqn:F; [|discriminate E]. injection E as <-.
  apply find_some in F as [F _]. eauto.
Qed.
Lemma keyword_inner m s t : keyword m s = Some t -> t <> tok_eof.
Proof.
  unfold keyword. intros E. destruct (kw_lookup keywords s) as [u|] eqn:K.
  - injection E as <-. eapply kw_lookup_inner; [|exact K]. intros a b I. unfold keywords in I. cbn [In] in I.
    repeat (destruct I as [X|I]; [injection X as _ <-; discriminate|]). destruct I.
  - destruct (functions m); [|discriminate E]. eapply kw_lookup_inner; [|exact E]. intros a b I. unfold func_keywords in I. cbn [In] in I.
    repeat (destruct I as [X|I]; [injection X as _ <-; discriminate|]). destruct I.
Qed.
Lemma lex_identifier_inner m l : inner l -> inner (lex_identifier m l).
Proof.
  intros H. unfold lex_identifier. destruct (span is_inside (rest l)) as [id r]. destruct (keyword m id) as [t|] eqn:K.
  - apply inner_push; [exact H|]. cbn. now apply (keyword_inner m id).
  - apply inner_push; [exact H|discriminate].
Qed.
Lemma put_inner c l acc : inner l -> inner (fst (put c (l, acc))).
Proof. intros H. exact H. Qed.
Lemma puts_inner u : forall l acc, inner l -> inner (fst (puts u (l, acc))).
Proof. induction u as [|c u IH]; intros l acc H; [exact H|]. cbn. apply IH. exact H. Qed.
Definition of_str (r : str_result) : lx := match r with SCont p | SDone p | SFail p => fst p end.
Lemma escape_inner l acc : inner l -> inner (of_str (escape l acc)).
Proof.
  intros H. unfold escape. destruct (find _ _) as [[a v]|]; [exact H|].
  destruct (_ || _).
  - destruct (hexes _ _ _) as [r [num|]]; [|exact H]. destruct (write_utf8 _) as [bs|]; [|exact H]. apply puts_inner. exact H.
  - destruct (is_digit _); [destruct (octals _ _ _); exact H|]. destruct (ceqb _ NUL); exact H.
Qed.
Lemma string_char_inner m ml fs l acc : inner l -> inner (of_str (lex_string_char m ml fs l acc)).
Proof.
  intros H. unfold lex_string_char. destruct (rest l) as [|c s] eqn:R; [exact H|].
  destruct (ceqb c NL); [destruct ml; exact H|]. destruct (ceqb c BSLASH).
  { destruct ml; [exact H|]. pose proof (escape_inner l acc H) as E. destruct (escape l acc) as [[? ?]|[? ?]|[? ?]]; exact E. }
  destruct (ceqb c NUL); [exact H|]. destruct (ceqb c QUOTE). { destruct ml; [destruct (_ && _)|]; exact H. }
  destruct (_ && _); [|exact H]. cbn [of_str fst]. apply inner_push; [|discriminate].
  apply lex_identifier_inner. repeat (apply inner_push; [|discriminate]). exact H.
Qed.
Lemma string_loop_inner m ml fs : forall fuel l acc ok l' acc', inner l -> string_loop m ml fs fuel l acc = Some (ok, l', acc') -> inner l'.
Proof.
  induction fuel as [|fuel IH]; intros l acc ok l' acc' H E; [discriminate E|]. cbn [string_loop] in E.
  pose proof (string_char_inner m ml fs l acc H) as C. destruct (lex_string_char m ml fs l acc) as [[l1 a1]|[l1 a1]|[l1 a1]]; cbn [of_str fst] in C.
  - exact (IH _ _ _ _ _ C E).
  - injection E as <- <- <-. exact C.
  - injection E as <- <- <-. exact C.
Qed.
Definition closed (r : lex_result) : Prop :=
  match r with
  | Cont l | Fail l => inner l
  | Done l => exists ts, toks l = ts ++ [plain tok_eof] /\ Forall (fun k => ty k <> tok_eof) ts
  end.
Lemma lex_string_inner m start l fs r : inner l -> lex_string m start l fs = Some r -> closed r.
Proof.
  intros H E. unfold lex_string in E. destruct (string_loop _ _ _ _ _ _) as [[[ok l2] acc2]|] eqn:L; [|discriminate E].
  apply string_loop_inner in L; [|exact H]. destruct (format m); destruct ok; injection E as <-; cbn [closed];
    first [apply inner_push; [exact L|discriminate] | exact L].
Qed.
Lemma skip_blanks_inner m : forall s com l, inner l -> inner (skip_blanks m s com l).
Proof.
  fix IH 1. intros [|c s] [text|] l H; cbn [skip_blanks].
  - unfold comment. destruct (format m); [|exact H]. apply (inner_push _ (copy_into_sdata text l)); [exact H|discriminate].
  - exact H.
  - destruct (_ || _); [|now apply IH]. unfold comment. destruct (format m); [|exact H].
    apply (inner_push _ (copy_into_sdata text l)); [exact H|discriminate].
  - destruct (ceqb c _); [now apply IH|]. destruct (is_blank c); [now apply IH|]. destruct (ceqb c BSLASH); [|exact H].
    destruct s as [|d s]; [exact H|]. destruct (ceqb d NL); [|exact H]. now apply IH.
Qed.
Lemma number_inner m l : inner l -> closed (number m l).
Proof.
  intros H. assert (F : forall st b l', inner l' -> closed (number_from m st b l')).
  { intros st b l' H'. unfold number_from. destruct (strtol_base b (rest l')) as [[v e]|]; [|exact H'].
    destruct (_ || _)%bool; [exact H'|]. destruct (format m); apply inner_push; solve [exact H'|discriminate]. }
  unfold number. destruct (ceqb (peek l) _); [|now apply F]. destruct (_ || _); [now apply F|]. destruct (_ || _); [now apply F|].
  destruct (_ || _); [now apply F|]. destruct (format m); apply inner_push; solve [exact H|discriminate].
Qed.
Lemma symbol_inner m c d t two : symbol m c d = Some (t, two) -> t <> tok_eof.
Proof.
  unfold symbol. intros E.
  repeat (match type of E with context [if ?b then _ else _] => destruct b end; try discriminate E;
          try (injection E as <- _; discriminate)).
Qed.
Lemma lex_other_inner m l : inner l -> closed (lex_other m l).
Proof.
  intros H. unfold lex_other.
  assert (Sm : forall t l', toks l' = toks l -> t <> tok_eof -> closed (Cont (advance (push (plain t) l')))).
  { intros t l' E N. apply Forall_app. cbn [advance with_rest push toks]. rewrite E. split; [exact H|]. now constructor. }
  repeat match goal with
         | |- context [if ceqb (peek l) NUL then _ else _] =>
             destruct (ceqb (peek l) NUL); [destruct (rest l); [cbn; exists (toks l); split; [reflexivity|exact H]|exact H]|]
         | |- context [match symbol m ?a ?b with Some _ => _ | None => _ end] =>
             destruct (symbol m a b) as [[t two]|] eqn:Es; [apply Sm; [now destruct two|now apply symbol_inner in Es]|exact H]
         | |- context [match paren l with 0 => _ | S _ => _ end] => destruct (paren l); [exact H|apply Sm; [reflexivity|discriminate]]
         | |- context [match bracket l with 0 => _ | S _ => _ end] => destruct (bracket l); [exact H|apply Sm; [reflexivity|discriminate]]
         | |- context [match curl l with 0 => _ | S _ => _ end] => destruct (curl l); [exact H|apply Sm; [reflexivity|discriminate]]
         | |- closed (if ?b then _ else _) => destruct b; try (apply Sm; [reflexivity|discriminate])
         end; exact H.
Qed.
Lemma tokenize_one_inner m l r : inner l -> tokenize_one m l = Some r -> closed r.
Proof.
  intros H E. unfold tokenize_one in E. apply (skip_blanks_inner m (rest l) None) in H. set (l0 := skip_blanks m (rest l) None l) in *. clearbody l0.
  destruct (_ && _); [eapply lex_string_inner; [|exact E]; exact H|]. destruct (ceqb (peek l0) QUOTE); [eapply lex_string_inner; [|exact E]; exact H|].
  destruct (is_start _); [injection E as <-; now apply lex_identifier_inner|].
  destruct (is_digit _); injection E as <-; [now apply number_inner|now apply lex_other_inner].
Qed.
Lemma tokenize_inner m : forall fuel ok l ok' l', inner l -> tokenize m fuel ok l = Some (ok', l') ->
  exists ts, toks l' = ts ++ [plain tok_eof] /\ Forall (fun k => ty k <> tok_eof) ts.
Proof.
  induction fuel as [|fuel IH]; intros ok l ok' l' H E; [discriminate E|]. cbn [tokenize] in E.
  destruct (tokenize_one m l) as [r|] eqn:T; [|discriminate E]. apply tokenize_one_inner in T; [|exact H].
  destruct r as [l1|l1|l1]; cbn [closed] in T; [exact (IH _ _ _ _ T E)|refine (IH _ (advance l1) _ _ T E)|injection E as <- <-; exact T].
Qed.
Lemma lexer_inner m src ok l : lexer_lex m src = Some (ok, l) ->
  exists ts, toks l = ts ++ [plain tok_eof] /\ Forall (fun k => ty k <> tok_eof) ts.
Proof. apply tokenize_inner. constructor. Qed.
