(** Lemmas about finding programs. *)
From Verif Require Import Base S_Str M_Path M_Version S_Version P_Version M_Feature S_Feature M_Findprog S_Findprog.
From Verif Require L_Fs.
Local Arguments B _ : simpl never.

Lemma compare_true v reqs : version_compare v reqs = Some true <-> reqs <> [] /\ Forall (requirement_holds v) reqs.
Proof.
  destruct reqs as [|q reqs]; [split; [discriminate|intros [H _]; congruence]|].
  destruct (C10_requirements_partial v (q :: reqs) ltac:(discriminate)) as (r & E & H). rewrite E. split.
  - intros [= ->]. split; [discriminate|now apply H].
  - intros [_ F]. f_equal. now apply H.
Qed.
Lemma compare_some v reqs : exists b, version_compare v reqs = Some b.
Proof.
  destruct reqs as [|q reqs]; [exists false; reflexivity|].
  destruct (C10_requirements_partial v (q :: reqs) ltac:(discriminate)) as (r & E & _). eauto.
Qed.

Lemma look_first : forall A n (l : list (bytes * A)) x, look n l = Some x <-> first_for n l x.
Proof.
  intros A n l x. induction l as [|[k v] l IH]; cbn [look].
  - split; [discriminate|]. intros (l1 & l2 & E & _). destruct l1; discriminate.
  - destruct (beqb_spec n k) as [<-|N].
    + split.
      * intros [= ->]. exists [], l. split; [reflexivity|]. intros y [].
      * intros ([|y l1] & l2 & E & F); [injection E as ->; reflexivity|]. injection E as <- _. exfalso. apply (F v). left. reflexivity.
    + rewrite IH. split.
      * intros (l1 & l2 & -> & F). exists ((k, v) :: l1), l2. split; [reflexivity|]. intros y [E|I]; [congruence|exact (F y I)].
      * intros ([|y l1] & l2 & E & F); [injection E; congruence|]. injection E as <- ->. exists l1, l2. split; [reflexivity|]. intros y I. apply (F y). right. exact I.
Qed.

Lemma look_not : forall A n (l : list (bytes * A)), look n l = None <-> none_for n l.
Proof.
  intros A n l. unfold none_for. induction l as [|[k v] l IH]; cbn [look In]; [tauto|].
  destruct (beqb_spec n k) as [<-|N].
  - split; [discriminate|]. intros H. exfalso. apply (H v). left. reflexivity.
  - rewrite IH. split; [intros H y [E|I]; [congruence|exact (H y I)]|intros H y I; exact (H y (or_intror I))].
Qed.

(** ** The file system *)
Fixpoint scan (w : world) (l : list place) : option bytes :=
  match l with
  | [] => None
  | x :: l => match x with
              | Regular (Some p) => if is_file w p then Some p else scan w l
              | Executable (Some p) => if is_exe w p then Some p else scan w l
              | _ => scan w l
              end
  end.

Lemma scan_app : forall w a b, scan w (a ++ b) = match scan w a with Some p => Some p | None => scan w b end.
Proof.
  intros w a b. induction a as [|x a IH]; [reflexivity|]. cbn [app scan].
  destruct x as [[p|]|[p|]]; try exact IH; [destruct (is_file w p)|destruct (is_exe w p)]; try exact IH; reflexivity.
Qed.

Lemma scan_one : forall w x l, (exists p, there w x p /\ scan w (x :: l) = Some p) \/ ((forall p, ~ there w x p) /\ scan w (x :: l) = scan w l).
Proof.
  intros w x l. cbn [scan]. destruct x as [[p|]|[p|]]; unfold there.
  - destruct (is_file w p) eqn:E; [left; exists p; repeat split; assumption|right; split; [intros q ([= <-] & H); congruence|reflexivity]].
  - right. split; [intros p ([=] & _)|reflexivity].
  - destruct (is_exe w p) eqn:E; [left; exists p; repeat split; assumption|right; split; [intros q ([= <-] & H); congruence|reflexivity]].
  - right. split; [intros p ([=] & _)|reflexivity].
Qed.

Lemma there_one : forall w x p q, there w x p -> there w x q -> p = q.
Proof. intros w [a|a] p q (E1 & _) (E2 & _); congruence. Qed.

Lemma scan_first : forall w l p, scan w l = Some p <-> first_there w l p.
Proof.
  intros w l p. induction l as [|x l IH].
  - split; [discriminate|]. intros ([|] & x & l2 & E & _); discriminate.
  - destruct (scan_one w x l) as [(q & T & ->)|(N & ->)].
    + split.
      * intros [= ->]. exists [], x, l. split; [reflexivity|]. split; [exact T|constructor].
      * intros ([|y l1] & z & l2 & E & T2 & F); injection E as -> ->; [f_equal; exact (there_one w z q p T T2)|].
        destruct (Forall_inv F q T).
    + rewrite IH. split.
      * intros (l1 & z & l2 & -> & T & F). exists (x :: l1), z, l2. split; [reflexivity|]. split; [exact T|constructor; assumption].
      * intros ([|y l1] & z & l2 & E & T2 & F); injection E as -> ->; [destruct (N p T2)|].
        exists l1, z, l2. split; [reflexivity|]. split; [exact T2|exact (Forall_inv_tail F)].
Qed.

Lemma scan_none : forall w l, scan w l = None <-> none_there w l.
Proof.
  intros w l. unfold none_there. induction l as [|x l IH]; [split; [constructor|reflexivity]|].
  destruct (scan_one w x l) as [(q & T & ->)|(N & ->)].
  - split; [discriminate|]. intros F. destruct (Forall_inv F q T).
  - rewrite IH. split; [intros F; constructor; assumption|apply Forall_inv_tail].
Qed.

Lemma join_pair : forall a b, join_paths [a; b] = path_join a b.
Proof.
  intros a b. unfold join_paths, path_join. cbn [join_paths_from]. destruct (path_push [] a) as [s|]; [|reflexivity].
  destruct (path_push s b); reflexivity.
Qed.

Lemma join_total : forall a n, exists q, path_join a n = Some q.
Proof.
  intros a n. unfold path_join. destruct (L_Fs.push_total [] a) as (q & ->). apply L_Fs.push_total.
Qed.

Lemma custom_scan : forall w n ds, custom_dir w n ds = Ok (scan w (map (fun d => Regular (join_paths [d; n])) ds)).
Proof.
  intros w n ds. induction ds as [|d ds IH]; [reflexivity|]. cbn [custom_dir map scan]. rewrite join_pair.
  destruct (join_total d n) as (p & ->). destruct (is_file w p); [reflexivity|exact IH].
Qed.

Lemma dir_scan : forall w n ds, find_dir w n ds = Ok (scan w (map (fun d => Executable (path_push d n)) ds)).
Proof.
  intros w n ds. induction ds as [|d ds IH]; [reflexivity|]. cbn [find_dir map scan].
  destruct (L_Fs.push_total d n) as (p & ->). destruct (is_exe w p); [reflexivity|exact IH].
Qed.

Lemma absolute_join : forall a n, path_make_absolute a n = join_paths [a; n].
Proof.
  intros a n. rewrite join_pair. unfold path_make_absolute, path_join. destruct (L_Fs.push_total [] a) as (q & ->).
  destruct (path_is_absolute n) eqn:A; [|reflexivity]. unfold path_push. rewrite A. reflexivity.
Qed.

Lemma file_scan : forall w dirs n, n <> [] -> find_file w dirs n = Ok (scan w (places w dirs n)).
Proof.
  intros w dirs n N. unfold places, find_file. rewrite custom_scan. rewrite !scan_app.
  destruct (scan w (map (fun d => Regular (join_paths [d; n])) dirs)) as [p|]; [reflexivity|].
  cbn [scan]. rewrite join_pair. destruct (join_total (source_dir w) n) as (p & ->). destruct (is_file w p); [reflexivity|].
  unfold find_cmd. destruct (beqb_spec n []) as [|_]; [contradiction|]. unfold path_is_basename. change SEP with "/"%char.
  destruct (mem_char "/"%char n); cbn [negb].
  - cbn [scan]. rewrite absolute_join, join_pair. destruct (join_total (started_in w) n) as (q & ->). destruct (is_exe w q); reflexivity.
  - destruct (env_path w) as [e|]; [|reflexivity]. apply dir_scan.
Qed.

(** ** Overrides *)
Lemma good_meets : forall versions over, exists b, good versions over = Ok b /\ (b = true <-> forall u, over = Some u -> meets versions u).
Proof.
  intros versions over. unfold good, meets. destruct versions as [reqs|].
  - destruct over as [v|].
    + destruct (compare_some v reqs) as (b & E). rewrite E. exists b. split; [reflexivity|]. split.
      * intros -> u [= <-]. apply compare_true. exact E.
      * intros H. specialize (H v eq_refl). apply compare_true in H. congruence.
    + exists true. split; [reflexivity|]. split; [intros _ u [=]|reflexivity].
  - exists true. split; [reflexivity|]. split; [intros _ u _; exact I|reflexivity].
Qed.

Lemma override_offers : forall w versions s n, (forall cmd, ~ first_for n (overrides s) (GPython cmd)) ->
  exists r, check_override w versions s n = Ok r
  /\ forall p, r = Some p <-> exists x, first_for n (overrides s) x /\ offers w versions x p.
Proof.
  intros w versions s n Np. unfold check_override. destruct (look n (overrides s)) as [x|] eqn:E.
  2:{ exists None. split; [reflexivity|]. intros p. split; [discriminate|]. intros (x & H & _). apply look_first in H. congruence. }
  apply look_first in E.
  assert (U : forall y, first_for n (overrides s) y <-> y = x).
  { intros y. split; [|intros ->; exact E]. intros H. apply look_first in H, E. congruence. }
  assert (G : forall over q (P : Prop), (P <-> forall u, over = Some u -> meets versions u) ->
    exists r, match good versions over with Ok true => Ok (Some q) | Ok false => Ok None | Err => Err | Crash => Crash end = Ok r
      /\ forall p : program, r = Some p <-> p = q /\ P).
  { intros over q P HP. destruct (good_meets versions over) as (b & -> & Hb). destruct b.
    - exists (Some q). split; [reflexivity|]. intros p. rewrite HP. split; [intros [= ->]; split; [reflexivity|apply Hb; reflexivity]|intros (-> & _); reflexivity].
    - exists None. split; [reflexivity|]. intros p. rewrite HP. split; [discriminate|]. intros (_ & H). apply Hb in H. discriminate. }
  assert (X : forall r, (forall p, r = Some p <-> offers w versions x p) ->
    forall p, r = Some p <-> exists y, first_for n (overrides s) y /\ offers w versions y p).
  { intros r H p. rewrite H. split; [intros O; exists x; split; [exact E|exact O]|]. intros (y & Fy & O). apply U in Fy. subst y. exact O. }
  destruct x as [[] cmd|cmd|f v|t v].
  - destruct (G (match versions with Some _ => version_of w cmd | None => None end) (Command cmd)
                (forall u, version_of w cmd = Some u -> meets versions u)) as (r & -> & H).
    { destruct versions; [reflexivity|]. split; [intros _ u [=]|intros _ u _; exact I]. }
    exists r. split; [reflexivity|]. apply X. intros p. rewrite H. cbn [offers]. tauto.
  - exists None. split; [reflexivity|]. apply X. intros p. cbn [offers]. split; [discriminate|intros ([=] & _)].
  - destruct (Np cmd E).
  - destruct (G v (Command [f]) (forall u, v = Some u -> meets versions u)) as (r & -> & H); [reflexivity|].
    exists r. split; [reflexivity|]. apply X. intros p. rewrite H. reflexivity.
  - destruct (G v (Target t) (forall u, v = Some u -> meets versions u)) as (r & -> & H); [reflexivity|].
    exists r. split; [reflexivity|]. apply X. intros p. rewrite H. reflexivity.
Qed.

Lemma file_suits : forall w versions p, exists r, found_file w versions p = Ok r
  /\ (r = Some (Command [p]) /\ suits w versions p \/ r = None /\ ~ suits w versions p).
Proof.
  intros w versions p. unfold found_file, suits, meets. destruct versions as [reqs|].
  2:{ eexists. split; [reflexivity|]. left. split; [reflexivity|left; reflexivity]. }
  destruct (version_of w [p]) as [v|].
  - destruct (compare_some v reqs) as (b & E). rewrite E. destruct b; eexists; (split; [reflexivity|]).
    + left. split; [reflexivity|]. right. exists v. split; [reflexivity|]. apply compare_true. exact E.
    + right. split; [reflexivity|]. intros [[=]|(u & [= <-] & H)]. apply compare_true in H. congruence.
  - eexists. split; [reflexivity|]. right. split; [reflexivity|]. intros [[=]|(u & [=] & _)].
Qed.

(** ** Versions *)
Lemma vchar_same : forall c, vchar c = version_char c.
Proof. intros c. destruct c as [[] [] [] [] [] [] [] []]; vm_compute; reflexivity. Qed.

Lemma dots_count : forall s, dots s = count_dots s.
Proof.
  intros s. unfold dots, count_dots. induction s as [|c s IH]; [reflexivity|]. cbn [filter split_on].
  pose proof (split_on_nonempty "."%char s) as N. destruct (ceqb c "."%char).
  - cbn [length]. rewrite IH. destruct (split_on "."%char s); [congruence|]. cbn [length]. lia.
  - rewrite IH. destruct (split_on "."%char s); [congruence|]. reflexivity.
Qed.

(** the first word and what follows it *)
Lemma words_span : forall s r t, span_v s = (r, t) ->
  (t = [] /\ words s = [r]) \/ (exists c t', t = c :: t' /\ words s = r :: words t').
Proof.
  unfold words. induction s as [|c s IH]; intros r t H; cbn [span_v] in H.
  - injection H as <- <-. left. split; reflexivity.
  - cbn [cut_at]. rewrite <- vchar_same. destruct (vchar c) eqn:E; cbn [negb].
    + destruct (span_v s) as [a b]. injection H as <- <-. destruct (IH a b eq_refl) as [(-> & ->)|(d & t' & -> & ->)].
      * left. split; reflexivity.
      * right. exists d, t'. split; reflexivity.
    + injection H as <- <-. right. exists c, s. split; reflexivity.
Qed.

Lemma span_length : forall s r t, span_v s = (r, t) -> length s = length r + length t.
Proof.
  induction s as [|c s IH]; intros r t H; cbn [span_v] in H; [injection H as <- <-; reflexivity|].
  destruct (vchar c); [|injection H as <- <-; reflexivity]. destruct (span_v s) as [a b]. injection H as <- <-.
  cbn [length]. rewrite (IH a b eq_refl). reflexivity.
Qed.

Fixpoint best_word (ws : list bytes) (best : option bytes) (n : nat) : option bytes :=
  match ws with
  | [] => best
  | r :: ws => if n <? dots r then best_word ws (Some r) (dots r) else best_word ws best n
  end.

Lemma guess_words : forall fuel s best n, length s < fuel -> guess_from fuel s best n = best_word (words s) best n.
Proof.
  induction fuel as [|fuel IH]; intros s best n L; [lia|]. cbn [guess_from]. destruct s as [|c s]; [reflexivity|].
  destruct (span_v (c :: s)) as [r t] eqn:E. pose proof (span_length _ _ _ E) as Ln. cbn [length] in L, Ln.
  assert (Step : forall best n, guess_from fuel t best n = best_word (match t with [] => [] | _ :: t' => words t' end) best n \/ r = []).
  { intros b m. destruct r as [|x r]; [right; reflexivity|left]. cbn [length] in Ln. rewrite IH by lia. destruct t as [|d t']; [reflexivity|].
    (* the character after a word is not part of one *)
    assert (Nd : vchar d = false).
    { clear - E. revert x r E. generalize (c :: s). intros l. induction l as [|y l IHl]; intros x r E; cbn [span_v] in E; [discriminate|].
      destruct (vchar y) eqn:Ey; [|discriminate]. destruct (span_v l) as [a b] eqn:El. injection E as <- <- ->.
      destruct a as [|z a]; [|exact (IHl z a eq_refl)]. destruct l as [|z l]; cbn [span_v] in El; [discriminate|].
      destruct (vchar z) eqn:Ez; [destruct (span_v l); discriminate|]. injection El as <- <-. exact Ez. }
    unfold words. cbn [cut_at]. rewrite <- vchar_same, Nd. cbn [negb best_word]. change (dots []) with 0.
    replace (m <? 0) with false by (symmetry; apply Nat.ltb_ge; lia). reflexivity. }
  destruct r as [|x r].
  - rewrite IH by lia. destruct (words_span _ _ _ E) as [(-> & _)|(d & t' & -> & ->)].
    + cbn [length] in Ln. lia.
    + cbn [span_v] in E. destruct (vchar c) eqn:Ec; [destruct (span_v s); discriminate|]. injection E as <- <-.
      cbn [best_word]. change (dots []) with 0. replace (n <? 0) with false by (symmetry; apply Nat.ltb_ge; lia). reflexivity.
  - assert (W : words (c :: s) = (x :: r) :: match t with [] => [] | _ :: t' => words t' end).
    { destruct (words_span _ _ _ E) as [(-> & ->)|(d & t' & -> & ->)]; reflexivity. }
    rewrite W. cbn [best_word]. destruct (n <? dots (x :: r)); [destruct (Step (Some (x :: r)) (dots (x :: r))) as [-> | ?]|destruct (Step best n) as [-> | ?]];
      try reflexivity; discriminate.
Qed.

Lemma best_spec : forall ws best n r, best_word ws best n = Some r <->
  (exists l1 l2, ws = l1 ++ r :: l2 /\ n < dots r /\ Forall (fun x => dots x < dots r) l1 /\ Forall (fun x => dots x <= dots r) l2)
  \/ best = Some r /\ Forall (fun x => dots x <= n) ws.
Proof.
  induction ws as [|x ws IH]; intros best n r; cbn [best_word].
  - split; [intros ->; right; split; [reflexivity|constructor]|]. intros [(l1 & l2 & E & _)|(-> & _)]; [destruct l1; discriminate|reflexivity].
  - destruct (Nat.ltb_spec n (dots x)) as [L|L]; rewrite IH.
    + split.
      * intros [(l1 & l2 & -> & H & F1 & F2)|([= ->] & F)].
        -- left. exists (x :: l1), l2. split; [reflexivity|]. split; [lia|]. split; [constructor; assumption|exact F2].
        -- left. exists [], ws. split; [reflexivity|]. split; [exact L|]. split; [constructor|exact F].
      * intros [([|y l1] & l2 & E & H & F1 & F2)|(-> & F)].
        -- injection E as -> ->. right. split; [reflexivity|exact F2].
        -- injection E as -> ->. left. exists l1, l2. split; [reflexivity|]. split; [exact (Forall_inv F1)|]. split; [exact (Forall_inv_tail F1)|exact F2].
        -- pose proof (Forall_inv F) as X. cbn in X. lia.
    + split.
      * intros [(l1 & l2 & -> & H & F1 & F2)|(-> & F)].
        -- left. exists (x :: l1), l2. split; [reflexivity|]. split; [lia|]. split; [constructor; [lia|assumption]|exact F2].
        -- right. split; [reflexivity|constructor; assumption].
      * intros [([|y l1] & l2 & E & H & F1 & F2)|(-> & F)].
        -- injection E as -> ->. lia.
        -- injection E as -> ->. left. exists l1, l2. split; [reflexivity|]. split; [exact H|]. split; [exact (Forall_inv_tail F1)|exact F2].
        -- right. split; [reflexivity|exact (Forall_inv_tail F)].
Qed.
